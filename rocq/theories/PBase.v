(** Lemmas about lists, panicking loops and matrices, for any element type. *)
From Coq Require Import List ZArith Bool Arith Lia Permutation.
From Verif Require Import Ops Arr.
Import ListNotations.

(** [tab n f] lists [f 0 .. f (n-1)] *)
Definition tab {A} (n : nat) (f : nat -> A) : list A := map f (seq 0 n).
Definition tabm {A} (r c : nat) (f : nat -> nat -> A) : mat A := Mat r c (tab r (fun i => tab c (f i))).

Lemma bind_ret {A B} (a : A) (k : A -> res B) : bind (Ret a) k = k a.
Proof. reflexivity. Qed.
Lemma bind_eq {A B} (m m' : res A) (k k' : A -> res B) :
  m = m' -> (forall a, m' = Ret a -> k a = k' a) -> bind m k = bind m' k'.
Proof. intros -> H. destruct m'; simpl; auto. Qed.
Lemma bind_assoc {A B C} (m : res A) (f : A -> res B) (g : B -> res C) :
  bind (bind m f) g = bind m (fun a => bind (f a) g).
Proof. destruct m; reflexivity. Qed.
Lemma bind_inv {A B} (m : res A) (k : A -> res B) b :
  bind m k = Ret b -> exists a, m = Ret a /\ k a = Ret b.
Proof. destruct m; simpl; intros H; [eauto|discriminate]. Qed.

Section Lists.
Context {A B : Type}.
Lemma tab_length n (f : nat -> A) : length (tab n f) = n.
Proof. unfold tab. rewrite map_length, seq_length. reflexivity. Qed.
Lemma tab_ext n (f g : nat -> A) : (forall i, i < n -> f i = g i) -> tab n f = tab n g.
Proof. intros H. apply map_ext_in. intros i Hi. apply in_seq in Hi. apply H. lia. Qed.
Lemma nth_tab n (f : nat -> A) i d : i < n -> nth i (tab n f) d = f i.
Proof.
  intros H. unfold tab. rewrite (nth_indep _ d (f 0)) by (rewrite map_length, seq_length; lia).
  rewrite map_nth, seq_nth by lia. reflexivity.
Qed.
Lemma nth_error_tab n (f : nat -> A) i : i < n -> nth_error (tab n f) i = Some (f i).
Proof.
  intros H. rewrite (nth_error_nth' _ (f 0)) by (rewrite tab_length; lia). rewrite nth_tab by lia. reflexivity.
Qed.
Lemma tab_nth (l : list A) d : tab (length l) (fun i => nth i l d) = l.
Proof.
  unfold tab. induction l as [|a l IH]; simpl; auto. f_equal. rewrite <- seq_shift, map_map. exact IH.
Qed.
Lemma tab_S n (f : nat -> A) : tab (S n) f = tab n f ++ [f n].
Proof. unfold tab. rewrite seq_S, map_app. reflexivity. Qed.
Lemma tab_inj n (f g : nat -> A) : tab n f = tab n g -> forall i, i < n -> f i = g i.
Proof.
  intros H i Hi. assert (E := f_equal (fun l => nth_error l i) H). simpl in E.
  rewrite !nth_error_tab in E by lia. congruence.
Qed.
Lemma map_tab (g : A -> B) n f : map g (tab n f) = tab n (fun i => g (f i)).
Proof. unfold tab. apply map_map. Qed.
Lemma repeat_tab n (a : A) : repeat a n = tab n (fun _ => a).
Proof.
  induction n; auto. rewrite tab_S, <- IHn. change (repeat a (S n)) with (a :: repeat a n). apply repeat_cons.
Qed.
Lemma in_tab n (f : nat -> A) x : In x (tab n f) <-> exists i, i < n /\ x = f i.
Proof.
  unfold tab. rewrite in_map_iff. split.
  - intros (i & E & H). apply in_seq in H. exists i. split; [lia|auto].
  - intros (i & H & E). exists i. split; [auto|apply in_seq; lia].
Qed.
Lemma list_eq_nth (l l' : list A) : length l = length l' ->
  (forall i d, i < length l -> nth i l d = nth i l' d) -> l = l'.
Proof.
  revert l'. induction l as [|a l IH]; intros [|b l'] Hl H; simpl in *; try lia; auto.
  f_equal. { apply (H 0 a). lia. } apply IH; [lia|]. intros i d Hi. apply (H (S i) d). lia.
Qed.

Lemma vget_nth (l : list A) i d : i < length l -> vget l i = Ret (nth i l d).
Proof. intros H. unfold vget. rewrite (nth_error_nth' _ d H). reflexivity. Qed.
Lemma vget_oob (l : list A) i : length l <= i -> vget l i = Panic POob.
Proof. intros H. unfold vget. apply nth_error_None in H. rewrite H. reflexivity. Qed.
Lemma vget_inv (l : list A) i a : vget l i = Ret a -> i < length l /\ forall d, nth i l d = a.
Proof.
  unfold vget. destruct (nth_error l i) eqn:E; intros H; [|discriminate]. injection H as <-.
  split; [apply nth_error_Some; congruence|]. intros d. apply nth_error_nth. exact E.
Qed.
Lemma vget_tab n (f : nat -> A) i : i < n -> vget (tab n f) i = Ret (f i).
Proof. intros H. unfold vget. rewrite nth_error_tab by lia. reflexivity. Qed.

Lemma upd_length (l : list A) i a : length (upd l i a) = length l.
Proof. revert i. induction l; intros [|i]; simpl; auto. Qed.
Lemma nth_upd (l : list A) i a k d :
  nth k (upd l i a) d = if (k =? i) && (i <? length l) then a else nth k l d.
Proof.
  revert i k. induction l as [|x l IH]; intros i k.
  - simpl. destruct i; rewrite andb_false_r; auto.
  - destruct i as [|i]; simpl.
    + destruct k; reflexivity.
    + destruct k as [|k]; simpl; auto. rewrite IH. reflexivity.
Qed.
Lemma upd_tab n (f : nat -> A) i a : i < n ->
  upd (tab n f) i a = tab n (fun k => if k =? i then a else f k).
Proof.
  intros H. apply list_eq_nth; [rewrite upd_length, !tab_length; auto|].
  intros k d Hk. rewrite upd_length, tab_length in Hk. rewrite nth_upd, tab_length, !nth_tab by lia.
  apply Nat.ltb_lt in H. rewrite H, andb_true_r. reflexivity.
Qed.
Lemma vset_ok (l : list A) i a : i < length l -> vset l i a = Ret (upd l i a).
Proof. intros H. unfold vset. apply Nat.ltb_lt in H. rewrite H. reflexivity. Qed.
Lemma vset_tab n (f : nat -> A) i a : i < n ->
  vset (tab n f) i a = Ret (tab n (fun k => if k =? i then a else f k)).
Proof. intros H. rewrite vset_ok by (rewrite tab_length; lia). rewrite upd_tab by lia. reflexivity. Qed.
Lemma vgetz_tab n (f : nat -> A) z : (0 <= z)%Z -> (Z.to_nat z < n) ->
  vgetz (tab n f) z = Ret (f (Z.to_nat z)).
Proof. intros H1 H2. unfold vgetz. rewrite (proj2 (Z.ltb_ge _ _)) by lia. apply vget_tab; auto. Qed.
Lemma vsetz_tab n (f : nat -> A) z a : (0 <= z)%Z -> (Z.to_nat z < n) ->
  vsetz (tab n f) z a = Ret (tab n (fun k => if k =? Z.to_nat z then a else f k)).
Proof. intros H1 H2. unfold vsetz. rewrite (proj2 (Z.ltb_ge _ _)) by lia. apply vset_tab; auto. Qed.
End Lists.

Lemma map2_tab {A B C} (g : A -> B -> C) n f f' :
  map2 g (tab n f) (tab n f') = tab n (fun i => g (f i) (f' i)).
Proof.
  unfold map2, tab. generalize (seq 0 n). intros l. induction l as [|a l IH]; simpl; auto.
  rewrite IH. reflexivity.
Qed.
Lemma map2_map_same {A B C D} (g : A -> B -> C) (f : D -> A) (f' : D -> B) l :
  map2 g (map f l) (map f' l) = map (fun i => g (f i) (f' i)) l.
Proof. unfold map2. induction l as [|a l IH]; simpl; auto. rewrite IH. reflexivity. Qed.
Lemma map2_length {A B C} (g : A -> B -> C) a b : length (map2 g a b) = min (length a) (length b).
Proof. unfold map2. rewrite map_length, combine_length. reflexivity. Qed.
Lemma combine_map_l {A B} (f : A -> B) (l : list A) : combine (map f l) l = map (fun a => (f a, a)) l.
Proof. induction l; simpl; congruence. Qed.
Lemma combine_map_r {A B} (f : A -> B) (l : list A) : combine l (map f l) = map (fun a => (a, f a)) l.
Proof. induction l; simpl; congruence. Qed.
Lemma combine_seq {A} (l : list A) d k : combine (seq k (length l)) l
  = map (fun i => (k + i, nth i l d)) (seq 0 (length l)).
Proof.
  revert k. induction l as [|a l IH]; intros k; simpl; auto.
  f_equal. { f_equal. lia. } rewrite IH. rewrite <- seq_shift, map_map.
  apply map_ext. intros i. f_equal. lia.
Qed.
Lemma map_seq_nth {A B} (f : A -> B) (l : list A) d : map f l = tab (length l) (fun i => f (nth i l d)).
Proof. rewrite <- (tab_nth l d) at 1. apply map_tab. Qed.
Lemma existsb_tab {A} (g : A -> bool) n f : existsb g (tab n f) = existsb (fun i => g (f i)) (seq 0 n).
Proof. unfold tab. generalize (seq 0 n). induction l; simpl; congruence. Qed.
Lemma firstn_map_r {A B} (f : A -> B) l : forall n, firstn n (map f l) = map f (firstn n l).
Proof. induction l; intros [|n]; simpl; congruence. Qed.
Lemma skipn_map_r {A B} (f : A -> B) l : forall n, skipn n (map f l) = map f (skipn n l).
Proof. induction l; intros [|n]; simpl; congruence. Qed.
Lemma firstn_seq n : forall k s, firstn n (seq s k) = seq s (min n k).
Proof. induction n; intros [|k] s; simpl; auto. f_equal. apply IHn. Qed.
Lemma skipn_seq n : forall k s, skipn n (seq s k) = seq (s + n) (k - n).
Proof.
  induction n as [|n IH]; intros k s.
  - simpl. f_equal; lia.
  - destruct k as [|k]; simpl; [reflexivity|]. rewrite IH. f_equal; lia.
Qed.
Lemma firstn_tab {A} n k (f : nat -> A) : n <= k -> firstn n (tab k f) = tab n f.
Proof. intros H. unfold tab. rewrite firstn_map_r, firstn_seq, Nat.min_l by lia. reflexivity. Qed.
Lemma skipn1_tab {A} k (f : nat -> A) : skipn 1 (tab (S k) f) = tab k (fun i => f (S i)).
Proof. unfold tab. rewrite skipn_map_r, skipn_seq. simpl. rewrite Nat.sub_0_r, <- seq_shift, map_map. reflexivity. Qed.
Lemma firstn_app_exact {A} (l l' : list A) : firstn (length l) (l ++ l') = l.
Proof. rewrite firstn_app, Nat.sub_diag, firstn_O, app_nil_r, firstn_all. reflexivity. Qed.
Lemma skipn_app_exact {A} (l l' : list A) : skipn (length l) (l ++ l') = l'.
Proof. rewrite skipn_app, Nat.sub_diag, skipn_all. reflexivity. Qed.

(** *** loops *)
Section Loops.
Context {A B S : Type}.
Lemma mapM_ext (f g : A -> res B) l : (forall a, In a l -> f a = g a) -> mapM f l = mapM g l.
Proof.
  induction l as [|a l IH]; intros H; simpl; auto. rewrite (H a) by (simpl; auto).
  rewrite IH; [reflexivity|]. intros; apply H; simpl; auto.
Qed.
Lemma mapM_ret (f : A -> res B) g l : (forall a, In a l -> f a = Ret (g a)) -> mapM f l = Ret (map g l).
Proof.
  induction l as [|a l IH]; intros H; simpl; auto. rewrite (H a) by (simpl; auto). simpl.
  rewrite IH; [reflexivity|]. intros; apply H; simpl; auto.
Qed.
Lemma mapM_inv (f : A -> res B) l : forall bs, mapM f l = Ret bs -> Forall2 (fun a b => f a = Ret b) l bs.
Proof.
  induction l as [|a l IH]; intros bs H; simpl in H.
  - injection H as <-. constructor.
  - apply bind_inv in H. destruct H as (b & Hb & H). apply bind_inv in H. destruct H as (bs' & Hbs & H).
    injection H as <-. constructor; auto.
Qed.
Lemma mapM_total (f : A -> res B) (P : B -> Prop) l :
  (forall a, In a l -> exists b, f a = Ret b /\ P b) -> exists bs, mapM f l = Ret bs /\ Forall P bs /\ length bs = length l.
Proof.
  induction l as [|a l IH]; intros H; simpl.
  - exists []. repeat split; constructor.
  - destruct (H a) as (b & Hb & HP); [simpl; auto|]. rewrite Hb. simpl.
    destruct IH as (bs & Hbs & HF & Hl); [intros; apply H; simpl; auto|]. rewrite Hbs. simpl.
    exists (b :: bs). repeat split; auto. simpl. lia.
Qed.
Lemma foldM_ext (f g : S -> A -> res S) l : forall s,
  (forall s a, In a l -> f s a = g s a) -> foldM f l s = foldM g l s.
Proof.
  induction l as [|a l IH]; intros s H; simpl; auto. rewrite (H s a) by (simpl; auto).
  destruct (g s a); simpl; auto. apply IH. intros; apply H; simpl; auto.
Qed.
Lemma foldM_app (f : S -> A -> res S) l l' s : foldM f (l ++ l') s = bind (foldM f l s) (foldM f l').
Proof. revert s. induction l as [|a l IH]; intros s; simpl; auto. destruct (f s a); simpl; auto. Qed.
(** loop with an invariant under which the body is the pure [g] *)
Lemma foldM_pure (I : S -> Prop) (f : S -> A -> res S) g l : forall s, I s ->
  (forall s a, In a l -> I s -> f s a = Ret (g s a) /\ I (g s a)) ->
  foldM f l s = Ret (fold_left g l s) /\ I (fold_left g l s).
Proof.
  induction l as [|a l IH]; intros s Hs H; simpl; auto.
  destruct (H s a) as [E Hs']; [simpl; auto|auto|]. rewrite E. simpl. apply IH; auto.
  intros; apply H; simpl; auto.
Qed.
Lemma foldM_total (I : S -> Prop) (f : S -> A -> res S) l : forall s, I s ->
  (forall s a, In a l -> I s -> exists s', f s a = Ret s' /\ I s') ->
  exists s', foldM f l s = Ret s' /\ I s'.
Proof.
  induction l as [|a l IH]; intros s Hs H; simpl; [eauto|].
  destruct (H s a) as (s' & E & Hs'); [simpl; auto|auto|]. rewrite E. simpl. apply IH; auto.
  intros; apply H; simpl; auto.
Qed.
Lemma foldM_inv (I : S -> Prop) (f : S -> A -> res S) l : forall s s', I s ->
  (forall s a s', In a l -> I s -> f s a = Ret s' -> I s') ->
  foldM f l s = Ret s' -> I s'.
Proof.
  induction l as [|a l IH]; intros s s' Hs H E; simpl in E; [congruence|].
  apply bind_inv in E. destruct E as (s1 & E1 & E). apply (IH s1); auto.
  - apply (H s a); simpl; auto.
  - intros s2 a' s3 Hin. apply H. simpl; auto.
Qed.
End Loops.
(** two loops in lockstep through a representation [rep] *)
Lemma foldM_rep {A S S'} (rep : S' -> S) (f : S -> A -> res S) (g : S' -> A -> S') l : forall s,
  (forall s a, In a l -> f (rep s) a = Ret (rep (g s a))) ->
  foldM f l (rep s) = Ret (rep (fold_left g l s)).
Proof.
  induction l as [|a l IH]; intros s H; simpl; auto. rewrite H by (simpl; auto). simpl. apply IH.
  intros; apply H; simpl; auto.
Qed.
Lemma foldM_repM {A S S'} (rep : S' -> S) (f : S -> A -> res S) (g : S' -> A -> res S') l : forall s,
  (forall s a, In a l -> f (rep s) a = bind (g s a) (fun s' => Ret (rep s'))) ->
  foldM f l (rep s) = bind (foldM g l s) (fun s' => Ret (rep s')).
Proof.
  induction l as [|a l IH]; intros s H; simpl; auto. rewrite H by (simpl; auto).
  destruct (g s a); simpl; auto. apply IH. intros; apply H; simpl; auto.
Qed.

(** *** matrices *)
Section Mats.
Context {A : Type}.
Lemma tabm_ext r c (f g : nat -> nat -> A) : (forall i j, i < r -> j < c -> f i j = g i j) -> tabm r c f = tabm r c g.
Proof. intros H. unfold tabm. f_equal. apply tab_ext. intros i Hi. apply tab_ext. auto. Qed.
Lemma tabm_wf r c (f : nat -> nat -> A) : mwf (tabm r c f).
Proof.
  split; simpl; [apply tab_length|]. apply Forall_forall. intros x Hx. apply in_tab in Hx.
  destruct Hx as (i & _ & ->). apply tab_length.
Qed.
Lemma mwf_tabm (m : mat A) d : mwf m -> m = tabm (mnr m) (mnc m) (fun i j => nth j (nth i (mrows m) []) d).
Proof.
  intros [H1 H2]. unfold tabm. destruct m as [r c rows]. simpl in *. f_equal. subst r.
  rewrite <- (tab_nth rows []) at 1. apply tab_ext. intros i Hi.
  rewrite <- (tab_nth (nth i rows []) d) at 1. f_equal.
  rewrite Forall_forall in H2. apply H2. apply nth_In. auto.
Qed.
Lemma mget_tabm r c (f : nat -> nat -> A) i j : i < r -> j < c -> mget (tabm r c f) i j = Ret (f i j).
Proof. intros. unfold mget, tabm. simpl. rewrite vget_tab by auto. simpl. apply vget_tab; auto. Qed.
Lemma mset_tabm r c (f : nat -> nat -> A) i j v : i < r -> j < c ->
  mset (tabm r c f) i j v = Ret (tabm r c (fun a b => if (a =? i) && (b =? j) then v else f a b)).
Proof.
  intros Hi Hj. unfold mset, tabm. simpl. rewrite vget_tab by auto. simpl. rewrite vset_tab by auto. simpl.
  rewrite vset_tab by auto. simpl. f_equal. f_equal. apply tab_ext. intros a Ha.
  destruct (a =? i) eqn:E; simpl; auto. apply tab_ext. intros b Hb. apply Nat.eqb_eq in E. subst. reflexivity.
Qed.
Lemma mrow_tabm r c (f : nat -> nat -> A) i : i < r -> mrow (tabm r c f) i = Ret (tab c (f i)).
Proof. intros. unfold mrow, tabm. simpl. apply (vget_tab r (fun i => tab c (f i))); auto. Qed.
Lemma colv_tabm r c (f : nat -> nat -> A) j d : j < c -> colv d (tabm r c f) j = tab r (fun i => f i j).
Proof. intros. unfold colv, tabm. simpl. rewrite map_tab. apply tab_ext. intros. apply nth_tab; auto. Qed.
Lemma mcol_tabm r c (f : nat -> nat -> A) j d : j < c -> mcol d (tabm r c f) j = Ret (tab r (fun i => f i j)).
Proof.
  intros. unfold mcol. simpl. rewrite (proj2 (Nat.ltb_lt _ _)) by auto. rewrite colv_tabm by auto. reflexivity.
Qed.
Lemma cols_tabm r c (f : nat -> nat -> A) d : cols d (tabm r c f) = tab c (fun j => tab r (fun i => f i j)).
Proof. unfold cols. simpl. apply tab_ext. intros. apply colv_tabm; auto. Qed.
Lemma mset_row_tabm r c (f : nat -> nat -> A) i g : i < r ->
  mset_row (tabm r c f) i (tab c g) = Ret (tabm r c (fun a b => if a =? i then g b else f a b)).
Proof.
  intros. unfold mset_row, tabm. simpl. rewrite vget_tab by auto. simpl.
  rewrite !tab_length, Nat.eqb_refl. rewrite vset_tab by auto. simpl. f_equal. f_equal. apply tab_ext.
  intros a Ha. destruct (a =? i); auto.
Qed.
Lemma mfill_tabm r c (d : A) : mfill d r c = tabm r c (fun _ _ => d).
Proof. unfold mfill, tabm. rewrite !repeat_tab. reflexivity. Qed.
Lemma concat_length_const (l : list (list A)) c : Forall (fun r => length r = c) l -> length (concat l) = length l * c.
Proof. induction 1; simpl; auto. rewrite app_length. lia. Qed.
Lemma chop_concat (l : list (list A)) c : Forall (fun r => length r = c) l -> chop c (length l) (concat l) = l.
Proof.
  induction 1 as [|x l Hx H IH]; simpl; auto. subst c. rewrite firstn_app_exact, skipn_app_exact, IH. reflexivity.
Qed.
Lemma reshape_concat (l : list (list A)) r c : length l = r -> Forall (fun r => length r = c) l ->
  reshape r c (concat l) = Ret (Mat r c l).
Proof.
  intros <- H. unfold reshape. rewrite (concat_length_const l c H), Nat.eqb_refl, chop_concat by auto. reflexivity.
Qed.
Lemma reshape_concat_tab r c (f : nat -> nat -> A) :
  reshape r c (concat (tab r (fun i => tab c (f i)))) = Ret (tabm r c f).
Proof.
  apply reshape_concat; [apply tab_length|]. apply Forall_forall. intros x Hx. apply in_tab in Hx.
  destruct Hx as (i & _ & ->). apply tab_length.
Qed.
End Mats.
Lemma map_tabm {A B} (g : A -> B) r c f : Mat r c (map (map g) (mrows (tabm r c f))) = tabm r c (fun i j => g (f i j)).
Proof. unfold tabm. simpl. rewrite map_tab. f_equal. apply tab_ext. intros. apply map_tab. Qed.

(** loops over a range, with the state after each step given by an index *)
Lemma foldM_seq {S} (f : S -> nat -> res S) (st : nat -> S) n : forall s,
  (forall i, s <= i < s + n -> f (st i) i = Ret (st (1 + i))) ->
  foldM f (seq s n) (st s) = Ret (st (s + n)).
Proof.
  induction n as [|n IH]; intros s H; simpl.
  - f_equal. f_equal. lia.
  - rewrite H by lia. simpl bind. replace (s + Datatypes.S n) with (Datatypes.S s + n) by lia.
    apply (IH (Datatypes.S s)). intros i Hi. apply H. lia.
Qed.
Lemma foldM_rev_seq {S} (f : S -> nat -> res S) (st : nat -> S) n : forall s,
  (forall i, s <= i < s + n -> f (st (1 + i)) i = Ret (st i)) ->
  foldM f (rev (seq s n)) (st (s + n)) = Ret (st s).
Proof.
  induction n as [|n IH]; intros s H.
  - simpl. f_equal. f_equal. lia.
  - rewrite seq_S, rev_app_distr. simpl. replace (s + Datatypes.S n) with (1 + (s + n)) by lia.
    rewrite H by lia. simpl. apply IH. intros i Hi. apply H. lia.
Qed.
