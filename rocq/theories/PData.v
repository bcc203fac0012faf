(** Design matrices refine their mathematical meaning (dense and sparse), exact arithmetic. *)
From Coq Require Import List ZArith Bool Arith Reals Lra Lia.
From Verif Require Import Ops Arr MUtils MDatasets XR PBase RSum SpecLin PLin SpecData PPenVal.
Import ListNotations.
Open Scope R_scope.

Lemma xv_ext n f g : (forall i, (i < n)%nat -> f i = g i) -> xv n f = xv n g.
Proof. intros H. apply tab_ext. intros. rewrite H; auto. Qed.
Lemma xv_length n f : length (xv n f) = n.
Proof. apply tab_length. Qed.
Lemma vget_xv n f i : (i < n)%nat -> vget (xv n f) i = Ret (Fin (f i)).
Proof. intros. unfold xv. rewrite vget_tab by auto. reflexivity. Qed.
Lemma vgetz_xv n f i : (i < n)%nat -> vgetz (xv n f) (Z.of_nat i) = Ret (Fin (f i)).
Proof. intros. unfold xv. rewrite vgetz_tab by (rewrite ?Nat2Z.id; lia). rewrite Nat2Z.id. reflexivity. Qed.
Lemma vset_xv n f i v : (i < n)%nat -> vset (xv n f) i (Fin v) = Ret (xv n (fun k => if (k =? i)%nat then v else f k)).
Proof.
  intros. unfold xv. rewrite vset_tab by auto. f_equal. apply tab_ext. intros k _. destruct (k =? i)%nat; reflexivity.
Qed.
Lemma vsetz_xv n f i v : (i < n)%nat -> vsetz (xv n f) (Z.of_nat i) (Fin v) = Ret (xv n (fun k => if (k =? i)%nat then v else f k)).
Proof.
  intros. unfold vsetz. rewrite (proj2 (Z.ltb_ge _ _)) by lia. rewrite Nat2Z.id. apply vset_xv. auto.
Qed.
Lemma vzeros_xv n : vzeros xops n = xv n (fun _ => 0).
Proof. apply repeat_tab. Qed.
Lemma mzeros_xm r c : mzeros xops r c = xm r c (fun _ _ => 0).
Proof. apply mfill_tabm. Qed.

(** *** targets *)
Lemma target_n n y t : single_target_of n y t -> n_samples t = n.
Proof. intros [->| ->]; simpl; auto. apply xv_length. Qed.
Lemma target_single n y t : single_target_of n y t -> single_target (Fin 0) t = Ret (xv n y).
Proof.
  intros [->| ->]; unfold single_target, try_single_target.
  - simpl. unfold colv. simpl. rewrite map_map. simpl. rewrite map_id. reflexivity.
  - cbn [as_multi_tasks]. cbv zeta. change (mnc (xm n 1 (fun i _ => y i))) with 1%nat. cbn [Nat.ltb Nat.leb].
    unfold xm. rewrite mcol_tabm by lia. reflexivity.
Qed.
Lemma target_mt_n n T Y t : multi_target_of n T Y t -> n_samples t = n /\ n_tasks t = T /\ as_multi_tasks t = xm n T Y.
Proof.
  intros [->|[-> ->]]; simpl; auto. rewrite xv_length. repeat split. unfold xm, tabm, xv. f_equal.
  rewrite map_tab. reflexivity.
Qed.
Lemma single_multi n y t : single_target_of n y t -> multi_target_of n 1 (fun i _ => y i) t.
Proof. intros [->| ->]; [right|left]; auto. Qed.

(** *** CSC columns *)
Lemma Forall2_seq {A B} (P : A -> B -> Prop) (f : nat -> A) (es : list B) : forall s,
  (forall k e, nth_error es k = Some e -> P (f (s + k)%nat) e) -> Forall2 P (map f (seq s (length es))) es.
Proof.
  induction es as [|e es IH]; intros s H; simpl; constructor.
  - specialize (H 0%nat e eq_refl). rewrite Nat.add_0_r in H. auto.
  - apply IH. intros k e' Hk. specialize (H (S k) e' Hk). rewrite Nat.add_succ_r in H. auto.
Qed.
Lemma csc_col_range c j es : csc_col c j es ->
  exists zs, csc_range c j = Ret zs /\
    Forall2 (fun z e => vgetz (cindices c) z = Ret (Z.of_nat (fst e)) /\ vgetz (cdata c) z = Ret (Fin (snd e))) zs es.
Proof.
  intros (lo & H1 & H2 & H3). unfold csc_range, vget. rewrite H1, H2. cbn [bind]. eexists. split; [reflexivity|].
  unfold zrange. replace (Z.to_nat (Z.of_nat (lo + length es) - Z.of_nat lo)) with (length es) by lia.
  apply Forall2_seq. intros k e Hk. destruct (H3 k e Hk) as [H4 H5]. unfold vgetz.
  rewrite (proj2 (Z.ltb_ge _ _)) by lia. replace (Z.to_nat (Z.of_nat lo + Z.of_nat (0 + k))) with (lo + k)%nat by lia.
  unfold vget. rewrite H4, H5. auto.
Qed.
Lemma foldM_F2 {A B S} (R : A -> B -> Prop) (f : S -> A -> res S) (g : S -> B -> res S) la lb : Forall2 R la lb ->
  (forall s a b, R a b -> In b lb -> f s a = g s b) -> forall s, foldM f la s = foldM g lb s.
Proof.
  induction 1 as [|a b la lb H HF IH]; intros Hfg s; simpl; auto.
  rewrite (Hfg s a b) by (simpl; auto). destruct (g s b); simpl; auto. apply IH. intros. apply Hfg; simpl; auto.
Qed.

(** a loop over a column, with the state given by a representation *)
Lemma col_loop {S S'} (rep : S' -> S) c j es (f : S -> Z -> res S) (g : S' -> nat * R -> S') : csc_col c j es ->
  (forall s z e, In e es -> vgetz (cindices c) z = Ret (Z.of_nat (fst e)) -> vgetz (cdata c) z = Ret (Fin (snd e)) ->
     f (rep s) z = Ret (rep (g s e))) ->
  forall s, bind (csc_range c j) (fun r => foldM f r (rep s)) = Ret (rep (fold_left g es s)).
Proof.
  intros Hc H s. destruct (csc_col_range c j es Hc) as (zs & E & HF). rewrite E. cbn [bind]. clear E Hc.
  revert s. induction HF as [|z e zs es [H1 H2] HF IH]; intros s; simpl; auto.
  rewrite (H s z e) by (simpl; auto). simpl. apply IH. intros. apply H; simpl; auto.
Qed.
Lemma fold_sum {A} (h : A -> R) l : forall a, fold_left (fun s e => s + h e) l a = a + Rsum (map h l).
Proof. induction l; intros; simpl; [lra|]. rewrite IHl. unfold Rsum. simpl. lra. Qed.
Lemma fold_sum_tab {A} (h : A -> nat -> R) l : forall (z : nat -> R) i,
  fold_left (fun z e => fun i => z i + h e i) l z i = z i + Rsum (map (fun e => h e i) l).
Proof. induction l; intros; simpl; [lra|]. rewrite IHl. unfold Rsum. simpl. lra. Qed.
Lemma fold_sum_mt {A} (h : A -> nat -> nat -> R) l : forall (z : rmat) i t,
  fold_left (fun z e => fun i t => z i t + h e i t) l z i t = z i t + Rsum (map (fun e => h e i t) l).
Proof. induction l; intros; simpl; [lra|]. rewrite IHl. unfold Rsum. simpl. lra. Qed.

(** sums over stored entries are sums over rows of the matrix they stand for *)
Lemma entries_sum n es v : (forall e, In e es -> (fst e < n)%nat) ->
  Rsum (map (fun e : nat * R => snd e * v (fst e)) es)
  = Sum n (fun i => Rsum (map (fun e => if (fst e =? i)%nat then snd e else 0) es) * v i).
Proof.
  induction es as [|e es IH]; intros H.
  - simpl. symmetry. apply Sum_zero. intros. unfold Rsum. simpl. ring.
  - assert (He : (fst e < n)%nat) by (apply H; simpl; auto).
    cbn [map]. unfold Rsum at 1. cbn [fold_right]. change (fold_right Rplus 0) with Rsum.
    rewrite IH by (intros; apply H; simpl; auto).
    rewrite (Sum_upd n (fun i => Rsum ((if (fst e =? i)%nat then snd e else 0) :: map (fun e0 : nat * R => if (fst e0 =? i)%nat then snd e0 else 0) es) * v i)
       (fun i => Rsum (map (fun e0 : nat * R => if (fst e0 =? i)%nat then snd e0 else 0) es) * v i) (fst e) He).
    + rewrite Nat.eqb_refl. unfold Rsum. simpl. lra.
    + intros i Hi Hne. rewrite (proj2 (Nat.eqb_neq (fst e) i)) by auto. unfold Rsum. simpl. ring.
Qed.
Lemma entry_sum n p E c j v : csc_of n p E c -> (j < p)%nat ->
  Rsum (map (fun e : nat * R => snd e * v (fst e)) (E j)) = Sum n (fun i => entry E i j * v i).
Proof. intros [_ H] Hj. apply entries_sum. apply H. auto. Qed.
Lemma entry_nodup E j e : NoDup (map fst (E j)) -> In e (E j) -> entry E (fst e) j = snd e.
Proof.
  unfold entry. induction (E j) as [|x l IH]; intros Hn Hi; simpl in *; [tauto|]. inversion Hn as [|? ? H1 H2]; subst.
  unfold Rsum in *. simpl. destruct Hi as [<-|Hi].
  - rewrite Nat.eqb_refl. replace (fold_right _ _ _) with 0; [lra|]. symmetry. clear IH Hn H2.
    induction l as [|y l IH]; simpl; auto. simpl in H1. rewrite (proj2 (Nat.eqb_neq (fst y) (fst x))) by tauto.
    rewrite IH by tauto. lra.
  - rewrite (proj2 (Nat.eqb_neq (fst x) (fst e))).
    + rewrite IH by auto. lra.
    + intros Heq. apply H1. rewrite Heq. apply in_map. auto.
Qed.
Lemma entry_sq n p E c j : csc_of n p E c -> no_repeats p E -> (j < p)%nat ->
  Rsum (map (fun e : nat * R => snd e * snd e) (E j)) = Sum n (fun i => entry E i j * entry E i j).
Proof.
  intros H Hn Hj. rewrite <- (entry_sum n p E c j (fun i => entry E i j) H Hj). f_equal. apply map_ext_in. intros e He.
  rewrite entry_nodup; auto.
Qed.

(** *** the meaning of a design matrix *)
Record dm_ok {DM} (dm : DesignMatrix xr DM) (D : DM) (n p : nat) (X : rmat) : Prop := {
  dm_ok_nf : dm_n_features dm D = Ret p;
  dm_ok_upd : forall z c j, (j < p)%nat ->
    dm_update dm D (xv n z) (Fin c) j = Ret (xv n (fun i => z i + c * X i j));
  dm_ok_ext : forall w ws, (forall j, In j ws -> (j < p)%nat) ->
    dm_extrap dm D ws (xv p w) n = Ret (xv n (fun i => Rsum (map (fun j => X i j * w j) ws)));
  dm_ok_upd_mt : forall T Z c j, (j < p)%nat ->
    dm_update_mt dm D (xm n T Z) (xv T c) j = Ret (xm n T (fun i t => Z i t + c t * X i j));
  dm_ok_ext_mt : forall T W ws, (forall j, In j ws -> (j < p)%nat) ->
    dm_extrap_mt dm D ws (xm p T W) n T = Ret (xm n T (fun i t => Rsum (map (fun j => X i j * W j t) ws)))
}.

Lemma mapM_tab {A B} (f : A -> res B) n (g : nat -> A) (h : nat -> B) :
  (forall i, (i < n)%nat -> f (g i) = Ret (h i)) -> mapM f (tab n g) = Ret (tab n h).
Proof.
  intros H. unfold tab.
  assert (G : forall l, (forall i, In i l -> (i < n)%nat) -> mapM f (map g l) = Ret (map h l)).
  { induction l as [|a l IH]; intros Hl; simpl; auto. rewrite H by (apply Hl; simpl; auto). simpl. rewrite IH; auto.
    intros; apply Hl; simpl; auto. }
  apply G. intros i Hi. apply in_seq in Hi. lia.
Qed.
Lemma mapM_seq {B} (f : nat -> res B) n (h : nat -> B) :
  (forall i, (i < n)%nat -> f i = Ret (h i)) -> mapM f (seq 0 n) = Ret (tab n h).
Proof. intros H. rewrite <- (mapM_tab f n (fun i => i) h H). unfold tab. rewrite map_id. reflexivity. Qed.

Lemma dense_ok n p X : dm_ok (dense_dm xops) (xm n p X) n p X.
Proof.
  constructor; cbn [dense_dm dm_n_features dm_update dm_extrap dm_update_mt dm_extrap_mt].
  - reflexivity.
  - intros z c j Hj. unfold dense_update. unfold xm. rewrite mcol_tabm by auto. cbn [bind]. unfold vaxpy.
    rewrite xv_length, tab_length, Nat.eqb_refl. unfold xv. rewrite map2_tab. reflexivity.
  - intros w ws Hws. unfold dense_extrap. cbn [xm tabm mrows]. unfold xv at 2. apply mapM_tab. intros i Hi.
    rewrite (mapM_ret _ (fun j => Fin (X i j * w j))).
    + cbn [bind isum xops]. f_equal. apply xsum_map. reflexivity.
    + intros j Hj. apply Hws in Hj. rewrite vget_tab by auto. cbn [bind]. rewrite vget_xv by auto. reflexivity.
  - intros T Z c j Hj. unfold dense_update_mt. cbn [xm tabm mnc mnr].
    set (st := fun k => xm n T (fun i t => if (i <? k)%nat then Z i t + c t * X i j else Z i t)).
    change (Mat n T (tab n (fun i => tab T (fun j0 => Fin (Z i j0))))) with (xm n T Z).
    assert (E0 : xm n T Z = st 0%nat) by (apply xm_ext; reflexivity). rewrite E0.
    rewrite (foldM_seq _ st).
    + f_equal. apply xm_ext. intros i t Hi _. rewrite (proj2 (Nat.ltb_lt _ _)) by lia. reflexivity.
    + intros i Hi. unfold st at 1. cbn [xm tabm mnc].
      set (st2 := fun u => xm n T (fun i' t => if (i' <? i)%nat || ((i' =? i)%nat && (t <? u)%nat) then Z i' t + c t * X i' j else Z i' t)).
      assert (E1 : st i = st2 0%nat).
      { apply xm_ext. intros i' t Hi' Ht. cbv beta. rewrite andb_false_r, orb_false_r. reflexivity. }
      rewrite E1. rewrite (foldM_seq _ st2).
      * f_equal. apply xm_ext. intros i' t Hi' Ht. cbv beta.
        rewrite (proj2 (Nat.ltb_lt t (0 + T))) by lia. rewrite andb_true_r.
        destruct (i' <? i)%nat eqn:Ea, (i' =? i)%nat eqn:Eb, (i' <? 1 + i)%nat eqn:Ec; simpl; auto;
          rewrite ?Nat.ltb_lt, ?Nat.ltb_ge, ?Nat.eqb_eq, ?Nat.eqb_neq in *; lia.
      * intros t Ht. unfold st2 at 1. rewrite mget_xm by lia. cbn [bind]. rewrite vget_xv by lia. cbn [bind].
        rewrite mget_xm by lia. cbn [bind]. rewrite Nat.eqb_refl, !(proj2 (Nat.ltb_ge _ _)) by lia. cbn [andb orb].
        cbn [fadd fmul xops xmul xadd]. unfold st2 at 1. rewrite mset_xm by lia. f_equal. apply xm_ext. intros i' t' Hi' Ht'.
        destruct (i' <? i)%nat eqn:Ea, (i' =? i)%nat eqn:Eb, (t' =? t)%nat eqn:Ec, (t' <? t)%nat eqn:Ed, (t' <? 1 + t)%nat eqn:Ee; simpl; auto;
          rewrite ?Nat.ltb_lt, ?Nat.ltb_ge, ?Nat.eqb_eq, ?Nat.eqb_neq in *; subst; try lia; auto.
  - intros T W ws Hws. unfold dense_extrap_mt. change (mrows (xm n p X)) with (tab n (fun i => tab p (fun j => Fin (X i j)))).
    rewrite (mapM_tab _ n _ (fun i => tab T (fun t => Fin (Rsum (map (fun j => X i j * W j t) ws))))).
    + cbn [bind]. apply reshape_concat_tab.
    + intros i Hi. unfold xm. rewrite cols_tabm. apply mapM_tab. intros t Ht.
      rewrite (mapM_ret _ (fun j => Fin (X i j * W j t))).
      * cbn [bind isum xops]. f_equal. apply xsum_map. reflexivity.
      * intros j Hj. apply Hws in Hj. rewrite vget_tab by auto. cbn [bind]. rewrite vget_tab by auto. reflexivity.
Qed.

Lemma sparse_ok n p E c : csc_of n p E c -> dm_ok (sparse_dm xops) c n p (entry E).
Proof.
  intros HC. destruct HC as [Hlen HE].
  assert (Hcol : forall j, (j < p)%nat -> csc_col c j (E j)) by (intros; apply HE; auto).
  assert (Hrow : forall j e, (j < p)%nat -> In e (E j) -> (fst e < n)%nat) by (intros j e Hj; apply HE; auto).
  constructor; cbn [sparse_dm dm_n_features dm_update dm_extrap dm_update_mt dm_extrap_mt].
  - unfold csc_n_features. rewrite Hlen. reflexivity.
  - intros z d j Hj. unfold sparse_update.
    rewrite (col_loop (xv n) c j (E j) _ (fun z e => fun i => z i + (if (fst e =? i)%nat then d * snd e else 0)) (Hcol j Hj)).
    + f_equal. apply xv_ext. intros i Hi. rewrite (fold_sum_tab (fun e i => if (fst e =? i)%nat then d * snd e else 0)).
      f_equal. unfold entry. rewrite <- Rsum_scal. f_equal. apply map_ext. intros e. destruct (_ =? _)%nat; ring.
    + intros s z' e He H1 H2. assert (Hr := Hrow j e Hj He). rewrite H1. cbn [bind]. rewrite H2. cbn [bind].
      rewrite vgetz_xv by auto. cbn [bind fadd fmul xops xmul xadd]. rewrite vsetz_xv by auto. f_equal. apply xv_ext.
      intros i Hi. rewrite (Nat.eqb_sym (fst e) i). destruct (i =? fst e)%nat eqn:Ei; [apply Nat.eqb_eq in Ei; subst; reflexivity|lra].
  - intros w ws Hws. unfold sparse_extrap. rewrite vzeros_xv.
    rewrite (foldM_rep (xv n) _ (fun z j => fun i => z i + entry E i j * w j)).
    + f_equal. apply xv_ext. intros i Hi. rewrite (fold_sum_tab (fun j i => entry E i j * w j)). ring.
    + intros z j Hj. apply Hws in Hj.
      rewrite (col_loop (xv n) c j (E j) _ (fun z e => fun i => z i + (if (fst e =? i)%nat then snd e * w j else 0)) (Hcol j Hj)).
      * f_equal. apply xv_ext. intros i Hi. rewrite (fold_sum_tab (fun e i => if (fst e =? i)%nat then snd e * w j else 0)).
        f_equal. unfold entry. rewrite (Rmult_comm _ (w j)), <- Rsum_scal. f_equal. apply map_ext. intros e. destruct (_ =? _)%nat; ring.
      * intros s z' e He H1 H2. assert (Hr := Hrow j e Hj He). rewrite H1. cbn [bind]. rewrite H2. cbn [bind].
        rewrite vget_xv by auto. cbn [bind].
        rewrite vgetz_xv by auto. cbn [bind fadd fmul xops xmul xadd]. rewrite vsetz_xv by auto. f_equal. apply xv_ext.
        intros i Hi. rewrite (Nat.eqb_sym (fst e) i). destruct (i =? fst e)%nat eqn:Ei; [apply Nat.eqb_eq in Ei; subst; reflexivity|lra].
  - intros T Z d j Hj. unfold sparse_update_mt.
    rewrite (col_loop (xm n T) c j (E j) _ (fun z e => fun i t => z i t + (if (fst e =? i)%nat then d t * snd e else 0)) (Hcol j Hj)).
    + f_equal. apply xm_ext. intros i t Hi Ht. rewrite (fold_sum_mt (fun e i t => if (fst e =? i)%nat then d t * snd e else 0)).
      f_equal. unfold entry. rewrite <- Rsum_scal. f_equal. apply map_ext. intros e. destruct (_ =? _)%nat; ring.
    + intros s z' e He H1 H2. assert (Hr := Hrow j e Hj He). cbn [xm tabm mnc]. change (Mat n T (tab n (fun i => tab T (fun j0 => Fin (s i j0))))) with (xm n T s).
      set (st := fun u => xm n T (fun i t => s i t + (if (fst e =? i)%nat && (t <? u)%nat then d t * snd e else 0))).
      assert (E0 : xm n T s = st 0%nat). { apply xm_ext. intros. cbv beta. rewrite andb_false_r. ring. }
      rewrite E0, (foldM_seq _ st).
      * f_equal. apply xm_ext. intros i t Hi Ht. cbv beta. rewrite (proj2 (Nat.ltb_lt t (0 + T))) by lia. rewrite andb_true_r. reflexivity.
      * intros t Ht. rewrite H1. cbn [bind]. rewrite vget_xv by lia. cbn [bind]. rewrite H2. cbn [bind].
        rewrite (proj2 (Z.ltb_ge _ _)) by lia. rewrite Nat2Z.id. unfold st at 1. rewrite mget_xm by lia. cbn [bind].
        rewrite (proj2 (Nat.ltb_ge t t)), andb_false_r by lia. cbn [fadd fmul xops xmul xadd]. unfold st at 1.
        rewrite mset_xm by lia. f_equal. apply xm_ext. intros i t' Hi Ht'. rewrite (Nat.eqb_sym (fst e) i).
        destruct (i =? fst e)%nat eqn:Ea, (t' =? t)%nat eqn:Ec, (t' <? t)%nat eqn:Ed, (t' <? 1 + t)%nat eqn:Ee; simpl; auto;
          rewrite ?Nat.ltb_lt, ?Nat.ltb_ge, ?Nat.eqb_eq, ?Nat.eqb_neq in *; subst; try lia; auto. ring.
  - intros T W ws Hws. unfold sparse_extrap_mt. rewrite mzeros_xm.
    rewrite (foldM_rep (xm n T) _ (fun z j => fun i t => z i t + entry E i j * W j t)).
    + f_equal. apply xm_ext. intros i t Hi Ht. rewrite (fold_sum_mt (fun j i t => entry E i j * W j t)). ring.
    + intros z j Hj. apply Hws in Hj.
      rewrite (col_loop (xm n T) c j (E j) _ (fun z e => fun i t => z i t + (if (fst e =? i)%nat then snd e * W j t else 0)) (Hcol j Hj)).
      * f_equal. apply xm_ext. intros i t Hi Ht. rewrite (fold_sum_mt (fun e i t => if (fst e =? i)%nat then snd e * W j t else 0)).
        f_equal. unfold entry. rewrite (Rmult_comm _ (W j t)), <- Rsum_scal. f_equal. apply map_ext. intros e. destruct (_ =? _)%nat; ring.
      * intros s z' e He H1 H2. assert (Hr := Hrow j e Hj He).
        set (st := fun u => xm n T (fun i t => s i t + (if (fst e =? i)%nat && (t <? u)%nat then snd e * W j t else 0))).
        assert (E0 : xm n T s = st 0%nat). { apply xm_ext. intros. cbv beta. rewrite andb_false_r. ring. }
        rewrite E0, (foldM_seq _ st).
        -- f_equal. apply xm_ext. intros i t Hi Ht. cbv beta. rewrite (proj2 (Nat.ltb_lt t (0 + T))) by lia. rewrite andb_true_r. reflexivity.
        -- intros t Ht. rewrite H1. cbn [bind]. rewrite H2. cbn [bind]. rewrite mget_xm by lia. cbn [bind].
           rewrite (proj2 (Z.ltb_ge _ _)) by lia. rewrite Nat2Z.id. unfold st at 1. rewrite mget_xm by lia. cbn [bind].
           rewrite (proj2 (Nat.ltb_ge t t)), andb_false_r by lia. cbn [fadd fmul xops xmul xadd]. unfold st at 1.
           rewrite mset_xm by lia. f_equal. apply xm_ext. intros i t' Hi Ht'. rewrite (Nat.eqb_sym (fst e) i).
           destruct (i =? fst e)%nat eqn:Ea, (t' =? t)%nat eqn:Ec, (t' <? t)%nat eqn:Ed, (t' <? 1 + t)%nat eqn:Ee; simpl; auto;
             rewrite ?Nat.ltb_lt, ?Nat.ltb_ge, ?Nat.eqb_eq, ?Nat.eqb_neq in *; subst; try lia; auto. ring.
Qed.
