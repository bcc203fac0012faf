(** Shapes: which parts of the program return normally, for any float arithmetic. *)
From Coq Require Import List ZArith Bool Arith Lia.
From Verif Require Import Ops Arr MUtils MDatasets MDatafits MDatafitsMT MPenalties MBlockPenalties MCd MBcd PBase SpecSolve.
Import ListNotations.

(** [m] returns normally with a result satisfying [P] *)
Definition total {A} (m : res A) (P : A -> Prop) : Prop := exists a, m = Ret a /\ P a.

Lemma t_ret {A} (a : A) (P : A -> Prop) : P a -> total (Ret a) P.
Proof. intros; exists a; auto. Qed.
Lemma t_bind {A B} (m : res A) (k : A -> res B) (P : A -> Prop) (Q : B -> Prop) :
  total m P -> (forall a, P a -> total (k a) Q) -> total (bind m k) Q.
Proof. intros (a & -> & H) Hk. cbn [bind]. auto. Qed.
Lemma t_conseq {A} (m : res A) (P Q : A -> Prop) : total m P -> (forall a, P a -> Q a) -> total m Q.
Proof. intros (a & E & H) HQ. exists a; auto. Qed.
Lemma t_foldM {A S} (I : S -> Prop) (f : S -> A -> res S) l s : I s ->
  (forall s a, In a l -> I s -> total (f s a) I) -> total (foldM f l s) I.
Proof. intros Hs H. destruct (foldM_total I f l s Hs) as (s' & E & HI); [intros s0 a Ha H0; destruct (H s0 a Ha H0) as (s1 & E1 & H1); eauto|exists s'; auto]. Qed.
Lemma t_mapM {A B} (f : A -> res B) (P : B -> Prop) l :
  (forall a, In a l -> total (f a) P) -> total (mapM f l) (fun bs => Forall P bs /\ length bs = length l).
Proof. intros H. destruct (mapM_total f P l H) as (bs & E & H1 & H2). exists bs; auto. Qed.
Lemma t_if {A} (b : bool) (m m' : res A) P : total m P -> total m' P -> total (if b then m else m') P.
Proof. destruct b; auto. Qed.

Section V.
Context {A : Type}.
Lemma t_vget (l : list A) i : i < length l -> total (vget l i) (fun _ => True).
Proof. intros H. unfold vget. destruct (nth_error l i) eqn:E; [eexists; split; eauto|]. apply nth_error_None in E. lia. Qed.
Lemma t_vget_in (l : list A) i : i < length l -> total (vget l i) (fun a => In a l).
Proof. intros H. unfold vget. destruct (nth_error l i) eqn:E; [eexists; split; eauto; apply nth_error_In in E; auto|]. apply nth_error_None in E. lia. Qed.
Lemma t_vset (l : list A) i a n : length l = n -> i < n -> total (vset l i a) (fun l' => length l' = n).
Proof. intros H Hi. rewrite vset_ok by lia. eexists; split; eauto. rewrite upd_length. auto. Qed.
Lemma t_vgetz (l : list A) z : (0 <= z < Z.of_nat (length l))%Z -> total (vgetz l z) (fun _ => True).
Proof. intros H. unfold vgetz. rewrite (proj2 (Z.ltb_ge _ _)) by lia. apply t_vget. lia. Qed.
Lemma t_vsetz (l : list A) z a n : length l = n -> (0 <= z < Z.of_nat n)%Z -> total (vsetz l z a) (fun l' => length l' = n).
Proof. intros H Hz. unfold vsetz. rewrite (proj2 (Z.ltb_ge _ _)) by lia. apply t_vset; auto. lia. Qed.

End V.
Section V2.
Context {A : Type}.
Lemma shaped_tabm r c (m : mat A) : shaped r c m -> forall d, m = tabm r c (fun i j => nth j (nth i (mrows m) []) d).
Proof. intros (H1 & H2 & H3) d. rewrite (mwf_tabm m d H3) at 1. subst. reflexivity. Qed.
Lemma tabm_shaped r c f : shaped r c (@tabm A r c f).
Proof. split; [reflexivity|]. split; [reflexivity|]. apply tabm_wf. Qed.
End V2.
Section V3.
Context {A : Type}.
Lemma t_mget r c (m : mat A) i j : shaped r c m -> i < r -> j < c -> total (mget m i j) (fun _ => True).
Proof.
  intros (H1 & H2 & [H3 H4]) Hi Hj. unfold mget. apply t_bind with (fun x => In x (mrows m)); [apply t_vget_in; lia|].
  intros x Hx. apply t_vget. rewrite Forall_forall in H4. rewrite (H4 x Hx). lia.
Qed.
Lemma upd_Forall (P : A -> Prop) l i a : Forall P l -> P a -> Forall P (upd l i a).
Proof. intros H Ha. revert i. induction H; intros [|i]; simpl; auto. Qed.
Lemma t_vset_in (P : A -> Prop) (l : list A) i a : Forall P l -> P a -> i < length l -> total (vset l i a) (fun l' => length l' = length l /\ Forall P l').
Proof. intros H Ha Hi. rewrite vset_ok by lia. eexists; split; eauto. split; [apply upd_length|apply upd_Forall; auto]. Qed.
Lemma reshape_shaped r c (l : list A) : length l = r * c -> total (reshape r c l) (shaped r c).
Proof.
  intros H. unfold reshape. rewrite H, Nat.eqb_refl. eexists. split; [reflexivity|]. split; [reflexivity|]. split; [reflexivity|].
  split; cbn [mrows mnr mnc].
  - clear H. revert l. induction r; intros l; simpl; auto.
  - revert l H. induction r as [|r IH]; intros l H; simpl; constructor.
    + rewrite firstn_length. simpl in H. lia.
    + apply IH. rewrite skipn_length. simpl in H. lia.
Qed.
End V3.
Lemma t_mset {A} r c (m : mat A) i j v : shaped r c m -> i < r -> j < c -> total (mset m i j v) (shaped r c).
Proof.
  intros (H1 & H2 & [H3 H4]) Hi Hj. unfold mset. apply t_bind with (fun x => In x (mrows m)); [apply t_vget_in; lia|].
  intros x Hx. rewrite Forall_forall in H4. apply t_bind with (fun x' => length x' = c); [apply t_vset; auto; rewrite (H4 x Hx); auto|].
  intros x' Hx'. eapply t_bind; [apply (t_vset_in (fun r => length r = c)); [|exact Hx'|lia]|].
  - apply Forall_forall. intros y Hy. rewrite (H4 y Hy). auto.
  - intros l [Hl HF]. apply t_ret. unfold shaped, mwf. cbn [mnr mnc mrows]. rewrite H1, H2. repeat split; auto. lia.
Qed.
Lemma t_mrow {A} r c (m : mat A) i : shaped r c m -> i < r -> total (mrow m i) (fun x => length x = c).
Proof.
  intros (H1 & H2 & [H3 H4]) Hi. unfold mrow. eapply t_conseq; [apply t_vget_in; lia|]. intros x Hx. rewrite Forall_forall in H4. rewrite (H4 x Hx). auto.
Qed.
Lemma t_mset_row {A} r c (m : mat A) i v : shaped r c m -> i < r -> length v = c -> total (mset_row m i v) (shaped r c).
Proof.
  intros (H1 & H2 & [H3 H4]) Hi Hv. unfold mset_row. apply t_bind with (fun x => In x (mrows m)); [apply t_vget_in; lia|].
  intros x Hx. rewrite Forall_forall in H4. rewrite (H4 x Hx), Hv, H2, Nat.eqb_refl.
  eapply t_bind; [apply (t_vset_in (fun r => length r = c)); [|exact Hv|lia]|].
  - apply Forall_forall. intros y Hy. rewrite (H4 y Hy). auto.
  - intros l [Hl HF]. apply t_ret. unfold shaped, mwf. cbn [mnr mnc mrows]. rewrite H1. repeat split; auto. lia.
Qed.
Lemma t_mcol {A} (d : A) r c m j : shaped r c m -> j < c -> total (mcol d m j) (fun x => length x = r).
Proof.
  intros (H1 & H2 & [H3 H4]) Hj. unfold mcol. rewrite H2, (proj2 (Nat.ltb_lt _ _)) by auto. apply t_ret. unfold colv. rewrite map_length. lia.
Qed.
Lemma cols_length {A} (d : A) r c m : shaped r c m -> length (cols d m) = c /\ Forall (fun x => length x = r) (cols d m).
Proof.
  intros (H1 & H2 & [H3 H4]). unfold cols. rewrite map_length, seq_length. split; auto. apply Forall_forall. intros x Hx.
  apply in_map_iff in Hx as (j & <- & _). unfold colv. rewrite map_length. lia.
Qed.

Section S.
Context {F : Type} (o : FOps F).
Lemma mzeros_shaped r c : shaped r c (mzeros o r c).
Proof. unfold mzeros. rewrite mfill_tabm. apply tabm_shaped. Qed.
Lemma vzeros_length n : length (vzeros o n) = n.
Proof. apply repeat_length. Qed.
Lemma t_vbin (f : F -> F -> F) a b n : length a = n -> length b = n -> total (vbin f a b) (fun l => length l = n).
Proof. intros H1 H2. unfold vbin. rewrite H1, H2, Nat.eqb_refl. apply t_ret. rewrite map2_length. lia. Qed.
Lemma t_vaxpy k a b n : length a = n -> length b = n -> total (vaxpy o k a b) (fun l => length l = n).
Proof. intros H1 H2. unfold vaxpy. rewrite H1, H2, Nat.eqb_refl. apply t_ret. rewrite map2_length. lia. Qed.
Lemma t_vdot a b : length a = length b -> total (vdot o a b) (fun _ => True).
Proof. intros H. unfold vdot. rewrite H, Nat.eqb_refl. apply t_ret. auto. Qed.
Lemma t_mtm r c c' A B : shaped r c A -> shaped r c' B -> total (mtm o A B) (shaped c c').
Proof.
  intros HA HB. destruct (cols_length (f0 o) _ _ _ HA) as [L1 _]. destruct (cols_length (f0 o) _ _ _ HB) as [L2 _].
  destruct HA as (H1 & H2 & H3), HB as (H1' & H2' & H3'). unfold mtm. rewrite H1, H1', Nat.eqb_refl. apply t_ret.
  unfold shaped, mwf. cbn [mnr mnc mrows]. rewrite H2, H2', map_length. repeat split; auto.
  apply Forall_forall. intros x Hx. apply in_map_iff in Hx as (y & <- & _). rewrite map_length. auto.
Qed.

(** *** the linear solver *)
Lemma t_row_sub r c dst src f ks sys : shaped r c sys -> dst < r -> src < r -> (forall k, In k ks -> k < c) ->
  total (row_sub o dst src f ks sys) (shaped r c).
Proof.
  intros Hs Hd Hsr Hk. unfold row_sub. apply t_foldM; auto. intros s k Hin HI. specialize (Hk k Hin).
  eapply t_bind; [apply (t_mget r c); auto|]. intros a _. eapply t_bind; [apply (t_mget r c); auto|]. intros b _. apply t_mset; auto.
Qed.
Lemma t_fill A b size r c : length b = size -> shaped r c A -> size <= r -> size <= c ->
  total (sls_fill o A b size) (shaped size (S size)).
Proof.
  intros Hb HA Hr Hc. unfold sls_fill. apply t_foldM; [apply mzeros_shaped|]. intros s i Hi HI. apply in_seq in Hi.
  apply t_foldM; auto. intros s' j Hj HI'. apply in_seq in Hj. apply t_bind with (fun _ => True).
  - destruct (j =? size) eqn:E; [apply t_vget; lia|apply Nat.eqb_neq in E; apply (t_mget r c); auto; lia].
  - intros v _. apply t_mset; auto; lia.
Qed.
Lemma t_forward size last sys : size = S last -> shaped size (S size) sys -> total (sls_forward o size last sys) (shaped size (S size)).
Proof.
  intros E H. unfold sls_forward. apply t_foldM; auto. intros s i Hi HI. apply in_seq in Hi.
  apply t_foldM; auto. intros s' j Hj HI'. apply in_seq in Hj.
  eapply t_bind; [apply (t_mget size (S size)); auto; lia|]. intros piv _. apply t_if; [apply t_ret; auto|].
  eapply t_bind; [apply (t_mget size (S size)); auto; lia|]. intros e _. apply t_row_sub; auto; try lia.
  intros k Hk. apply in_seq in Hk. lia.
Qed.
Lemma t_backward size last sys : size = S last -> shaped size (S size) sys -> total (sls_backward o size last sys) (shaped size (S size)).
Proof.
  intros E H. unfold sls_backward. apply t_foldM; auto. intros s i Hi HI. apply in_rev in Hi. apply in_seq in Hi.
  eapply t_bind; [apply (t_mget size (S size)); auto; lia|]. intros piv _. apply t_if; [apply t_ret; auto|].
  apply t_foldM; auto. intros s' j Hj HI'. apply in_rev in Hj. apply in_seq in Hj.
  eapply t_bind; [apply (t_mget size (S size)); auto; lia|]. intros piv' _.
  eapply t_bind; [apply (t_mget size (S size)); auto; lia|]. intros e _. apply t_row_sub; auto; try lia.
  intros k Hk. apply in_rev in Hk. apply in_seq in Hk. lia.
Qed.
Definition sol_ok (size : nat) (r : result (list F) lin_err) : Prop := match r with Ok x => length x = size | Err _ => True end.
Lemma t_extract size is : (forall i, In i is -> i < size) -> forall sys x, shaped size (S size) sys -> length x = size ->
  total (sls_extract o size is sys x) (sol_ok size).
Proof.
  induction is as [|i is IH]; intros Hin sys x Hs Hx; cbn [sls_extract]; [apply t_ret; auto|].
  assert (Hi : i < size) by (apply Hin; left; auto).
  eapply t_bind; [apply (t_mget size (S size)); auto; lia|]. intros piv _. apply t_if; [apply t_ret; exact I|].
  eapply t_bind; [apply (t_mget size (S size)); auto; lia|]. intros rhs _.
  eapply t_bind; [apply (t_mset size (S size)); auto; lia|]. intros s1 H1.
  eapply t_bind; [apply (t_mset size (S size)); auto; lia|]. intros s2 H2.
  eapply t_bind; [apply (t_mget size (S size)); auto; lia|]. intros v _.
  eapply t_bind; [apply (t_vset x i v size); auto|]. intros x' Hx'. apply IH; auto. intros; apply Hin; right; auto.
Qed.
Lemma t_solve A b r c : 1 <= length b -> shaped r c A -> length b <= r -> length b <= c ->
  total (solve_lin_sys o A b) (sol_ok (length b)).
Proof.
  intros H1 HA Hr Hc. unfold solve_lin_sys. eapply t_bind; [apply (t_fill A b (length b) r c); auto|].
  intros s0 H0. destruct (length b) as [|last] eqn:E; [lia|].
  eapply t_bind; [apply (t_forward (S last) last); auto|]. intros s1 Hs1.
  eapply t_bind; [apply (t_backward (S last) last); auto|]. intros s2 Hs2.
  apply t_extract; auto.
  - intros i Hi. apply in_seq in Hi. lia.
  - apply vzeros_length.
Qed.
(** the matrix is smaller than the right-hand side: out of bounds *)
Lemma solve_oob A b c : shaped c c A -> c < length b -> solve_lin_sys o A b = Panic POob.
Proof.
  intros HA Hc. unfold solve_lin_sys. set (size := length b) in *.
  assert (E : sls_fill o A b size = Panic POob).
  2:{ rewrite E. reflexivity. }
  unfold sls_fill. replace (seq 0 size) with (0 :: seq 1 (size - 1)) by (destruct size; [lia|simpl; rewrite Nat.sub_0_r; reflexivity]).
  cbn [foldM].
  assert (P : foldM (fun sys j => v <- (if j =? size then vget b 0 else mget A 0 j) ;; mset sys 0 j v) (seq 0 (S size)) (mzeros o size (S size)) = Panic POob).
  2:{ rewrite P. reflexivity. }
  replace (seq 0 (S size)) with (seq 0 c ++ c :: seq (S c) (size - c)).
  2:{ replace (S size) with (c + S (size - c)) by lia. rewrite seq_app. reflexivity. }
  rewrite foldM_app.
  assert (T : total (foldM (fun sys j => v <- (if j =? size then vget b 0 else mget A 0 j) ;; mset sys 0 j v) (seq 0 c) (mzeros o size (S size))) (shaped size (S size))).
  { apply t_foldM; [apply mzeros_shaped|]. intros s j Hj HI. apply in_seq in Hj. rewrite (proj2 (Nat.eqb_neq _ _)) by lia.
    eapply t_bind; [apply (t_mget c c); auto; lia|]. intros v _. apply t_mset; auto; lia. }
  destruct T as (s & -> & Hs). cbn [bind foldM]. rewrite (proj2 (Nat.eqb_neq _ _)) by lia.
  destruct HA as (H1 & H2 & [H3 H4]). unfold mget. destruct c as [|c'].
  - rewrite vget_oob by lia. reflexivity.
  - destruct (t_vget_in (mrows A) 0) as (x & Ex & Hx); [lia|]. rewrite Ex. cbn [bind].
    rewrite Forall_forall in H4. rewrite vget_oob by (rewrite (H4 x Hx); lia). reflexivity.
Qed.
Lemma solve_underflow A : solve_lin_sys o A [] = Panic PUnderflow.
Proof. reflexivity. Qed.

(** *** extrapolation *)
Definition diff_ok (width : nat) (m : mat F) K := shaped (S K) width m.
Lemma anderson_start last K width : shaped (S K) width last ->
  exists U, shaped K width U /\ exists C, mtm o U U = Ret C /\ shaped width width C /\
  anderson_point o last width K =
  (_res <- solve_lin_sys o C (repeat (f1 o) K) ;;
   match _res with
   | Err _ => Ret None
   | Ok z =>
       let s := nsum o z in
       let c := map (fun zi => fdiv o zi s) z in
       pt <- foldM (vadd o)
               (map2 (fun row c_k => map (fun x => fmul o x c_k) row) (firstn K (mrows last)) c)
               (vzeros o width) ;;
       Ret (Some pt)
   end).
Proof.
  intros Hs. assert (Hs' := Hs). destruct Hs' as (H1 & H2 & [H3 H4]). unfold anderson_point.
  assert (T : total (mapM (fun rr => vsub o (snd rr) (fst rr)) (combine (firstn K (mrows last)) (skipn 1 (mrows last))))
    (fun bs => Forall (fun x => length x = width) bs /\ length bs = K)).
  { eapply t_conseq; [apply (t_mapM _ (fun x => length x = width))|].
    - intros [a b] Hab. cbn [fst snd]. rewrite Forall_forall in H4. apply t_vbin.
      + rewrite (H4 b); auto. apply in_combine_r in Hab. rewrite <- (firstn_skipn 1 (mrows last)). apply in_or_app; auto.
      + rewrite (H4 a); auto. apply in_combine_l in Hab. rewrite <- (firstn_skipn K (mrows last)). apply in_or_app; auto.
    - intros bs [HF HL]. split; auto. rewrite HL, combine_length, firstn_length, skipn_length. lia. }
  destruct T as (bs & -> & HF & HL). cbn [bind]. rewrite reshape_concat by auto. cbn [bind].
  assert (HU : shaped K width (Mat K width bs)) by (split; [reflexivity|]; split; [reflexivity|]; split; auto).
  exists (Mat K width bs). split; auto. destruct (t_mtm _ _ _ _ _ HU HU) as (C & EC & HC). exists C. split; auto. split; auto.
  rewrite EC. reflexivity.
Qed.
Definition pt_ok (width : nat) (r : option (list F)) : Prop := match r with Some pt => length pt = width | None => True end.
Lemma t_anderson last K width : shaped (S K) width last -> 1 <= K <= width -> total (anderson_point o last width K) (pt_ok width).
Proof.
  intros Hs [HK Hw]. destruct (anderson_start last K width Hs) as (U & _ & C & _ & HC & ->).
  eapply t_bind; [apply (t_solve C (repeat (f1 o) K) width width); rewrite ?repeat_length; auto|].
  rewrite repeat_length. intros [z|e] Hz; [|apply t_ret; exact I]. cbv zeta. eapply t_bind; [|intros pt Hpt; apply t_ret; exact Hpt].
  apply t_foldM; [apply vzeros_length|]. intros s a Ha Hl. apply t_vbin; auto.
  destruct Hs as (H1 & H2 & [H3 H4]). unfold map2 in Ha. apply in_map_iff in Ha as ([r c] & <- & Hrc). cbn [fst snd].
  rewrite map_length. apply in_combine_l in Hrc. rewrite Forall_forall in H4. rewrite (H4 r); auto.
  rewrite <- (firstn_skipn K (mrows last)). apply in_or_app; auto.
Qed.
Lemma anderson_oob last K width : shaped (S K) width last -> width < K -> anderson_point o last width K = Panic POob.
Proof.
  intros Hs Hw. destruct (anderson_start last K width Hs) as (U & _ & C & _ & HC & ->).
  rewrite (solve_oob C _ width) by (rewrite ?repeat_length; auto). reflexivity.
Qed.
Lemma anderson_k0 last width : shaped 1 width last -> anderson_point o last width 0 = Panic PUnderflow.
Proof. intros Hs. destruct (anderson_start last 0 width Hs) as (U & _ & C & _ & HC & ->). reflexivity. Qed.
End S.
