(** [make_correlated_data] with coefficients for another number of tasks than [n_tasks]. *)
From Coq Require Import List ZArith Bool Arith Lia Lra Reals.
From Verif Require Import Ops Arr MUtils MDatasets MPython MPyUtils MTestHelpers XR PBase RSum SpecLin SpecData SpecDatafit SpecSynth PLin PDatafit PDataProps PSynth PSynth2 PSynthEx.
Import ListNotations.
Open Scope R_scope.

Lemma flat_len {A} n k (f : nat -> nat -> A) : length (concat (tab n (fun i => tab k (f i)))) = (n * k)%nat.
Proof.
  unfold tab. rewrite <- (seq_length n 0) at 2. induction (seq 0 n) as [|i l IH]; cbn [map concat length]; [reflexivity|]. rewrite app_length, IH, map_length, seq_length. reflexivity.
Qed.
Lemma flat_nth {A} k (f : nat -> nat -> A) n : forall b i t, (i < n)%nat -> (t < k)%nat -> nth_error (concat (map (fun i => tab k (f i)) (seq b n))) (i * k + t) = Some (f (b + i)%nat t).
Proof.
  induction n as [|n IH]; intros b i t Hi Ht; [lia|]. cbn [seq map concat]. assert (L : length (tab k (f b)) = k) by apply tab_length. destruct i as [|i].
  - cbn [Nat.mul Nat.add]. rewrite nth_error_app1 by lia. rewrite Nat.add_0_r. unfold tab. rewrite nth_error_map. rewrite (nth_error_nth' _ 0%nat) by (rewrite seq_length; lia). cbn [option_map]. rewrite seq_nth by lia. reflexivity.
  - rewrite nth_error_app2 by (rewrite L; cbn [Nat.mul]; lia). rewrite L. replace (S i * k + t - k)%nat with (i * k + t)%nat by (cbn [Nat.mul]; lia). rewrite IH by lia. f_equal. f_equal. lia.
Qed.
Lemma iadd_col n k (Y E : rmat) : k <> 1%nat -> np_iadd xops (T2 (xm n k Y)) (xm n 1 E) = PyRet (T2 (xm n k (fun i t => Y i t + E i 0%nat))).
Proof.
  intros Hk. unfold np_iadd. change (mnc (xm n 1 E)) with 1%nat. change (mnc (xm n k Y)) with k. change (mnr (xm n k Y)) with n. rewrite (proj2 (Nat.eqb_neq 1 k)) by auto. cbn [Nat.eqb].
  do 2 f_equal. unfold xm, tabm. cbn [mrows]. rewrite map2_tab. f_equal. apply tab_ext. intros i Hi. rewrite map_tab. reflexivity.
Qed.
Lemma ravel_flat n k M : flattened n k M (np_ravel (T2 (xm n k M))).
Proof.
  unfold np_ravel, xm, tabm. cbn [mrows]. split; [apply flat_len|]. intros i t Hi Ht. exact (flat_nth k (fun i t => Fin (M i t)) n 0 i t Hi Ht).
Qed.
Lemma other_tasks n p k T corr snr density d G V N W : 0 <= corr < 1 -> 0 < density <= 1 -> (1 <= p)%nat -> snr <> 0 -> finite_draws d G V N -> k <> T ->
  (T <> 1%nat -> py_make_correlated_data xops xint n p T (Fin corr) (Fin snr) (Fin density) (Some (T2 (xm p k W))) d = PyRaise ValueErr) /\
  (T = 1%nat -> frob n 1 N <> 0 ->
   exists X E ly lw, py_make_correlated_data xops xint n p T (Fin corr) (Fin snr) (Fin density) (Some (T2 (xm p k W))) d = PyRet (xm n p X, T1 ly, T1 lw) /\
     flattened n k (fun i t => lin_mt p X W i t + E i) ly /\ flattened p k W lw /\
     Rabs snr * frob n 1 (fun i _ => E i) = frob n k (lin_mt p X W)).
Proof.
  intros Hc Hd Hp Hs (HG & HV & HN) Hk.
  assert (B : forall R1, (R1 = np_iadd xops (T2 (xm n k (lin_mt p (design_of corr p G) W))) (Mat n T
                (map (map (fun e => fdiv xops (fmul xops (fdiv xops e (np_norm xops (concat (mrows (randn2 n T (d_noise d)))))) (np_norm xops (np_ravel (T2 (xm n k (lin_mt p (design_of corr p G) W)))))) (Fin snr))) (mrows (randn2 n T (d_noise d)))))) ->
     py_make_correlated_data xops xint n p T (Fin corr) (Fin snr) (Fin density) (Some (T2 (xm p k W))) d =
     pybind R1 (fun Y => if (T =? 1)%nat then PyRet (xm n p (design_of corr p G), T1 (np_ravel Y), T1 (np_ravel (T2 (xm p k W)))) else PyRet (xm n p (design_of corr p G), Y, T2 (xm p k W)))).
  { intros R1 ->. unfold py_make_correlated_data. destruct (range_ok corr density Hc Hd) as [-> ->]. cbn [negb]. rewrite (design_fin corr n p G) by auto. cbn [pybind]. rewrite matmul_2. reflexivity. }
  rewrite (B _ eq_refl). clear B. split.
  - intros HT. unfold np_iadd. cbn [mnc]. change (mnc (xm n k _)) with k. rewrite (proj2 (Nat.eqb_neq T k)), (proj2 (Nat.eqb_neq T 1)) by auto. reflexivity.
  - intros -> Hf. set (X := design_of corr p G). set (Fm := lin_mt p X W).
    assert (En : randn2 n 1 (d_noise d) = xm n 1 N).
    { unfold randn2, xm, tabm. f_equal. change (map ?f (seq 0 n)) with (tab n f). apply tab_ext. intros i Hi. unfold randn. apply tab_ext. intros t Ht. apply HN. }
    rewrite En. change (np_ravel (T2 (xm n k Fm))) with (concat (mrows (xm n k Fm))). rewrite !norm_flat.
    replace (Mat n 1 _) with (xm n 1 (fun i t => N i t / frob n 1 N * frob n k Fm / snr)).
    2:{ unfold xm, tabm. cbn [mrows]. f_equal. rewrite map_tab. apply tab_ext. intros i Hi. rewrite map_tab. apply tab_ext. intros t Ht.
        cbn [fdiv fmul xops]. rewrite (xdiv_fin _ _ Hf). cbn [xmul]. rewrite xdiv_fin; auto. }
    rewrite iadd_col by auto. cbn [pybind Nat.eqb].
    exists X, (fun i => N i 0%nat / frob n 1 N * frob n k Fm / snr). do 2 eexists. split; [reflexivity|]. split; [apply ravel_flat|]. split; [apply ravel_flat|].
    rewrite (frob_ext n 1 _ (fun i t => N i t * (frob n k Fm / frob n 1 N / snr))).
    2:{ intros i t _ Ht. replace t with 0%nat by lia. cbv beta. field. auto. }
    rewrite frob_scale. unfold Rdiv. rewrite !Rabs_mult, !Rabs_inv by auto.
    rewrite (Rabs_right (frob n k Fm)), (Rabs_right (frob n 1 N)) by (apply Rle_ge, frob_nonneg). fold Fm. assert (Rabs snr <> 0) by (apply Rabs_no_R0; auto). field; auto.
Qed.
Lemma other_ex : frob 1 1 dN <> 0. Proof. rewrite frob1. unfold dN. rewrite Rabs_right; lra. Qed.
