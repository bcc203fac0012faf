(** Proofs about [make_correlated_data] and the test helpers: facts behind C64 to C67. *)
From Coq Require Import List ZArith Bool Arith Lia Lra Reals.
From Verif Require Import Ops Arr MUtils MDatasets MPython MPyUtils MTestHelpers XR PBase RSum SpecLin SpecData SpecDatafit SpecSynth PLin PDatafit PDataProps PSynth.
Import ListNotations.
Open Scope R_scope.

(** *** arrays *)
Lemma ravel_1 n (M : rmat) : np_ravel (T2 (xm n 1 M)) = xv n (fun i => M i 0%nat).
Proof.
  unfold np_ravel, xm, xv, tabm. cbn [mrows]. unfold tab at 2. cbn [seq map]. unfold tab.
  induction (seq 0 n) as [|i l IH]; simpl; [reflexivity|]. f_equal. exact IH.
Qed.
Lemma Rsum_concat l : Rsum (concat l) = Rsum (map Rsum l).
Proof. induction l as [|a l IH]; simpl; [reflexivity|]. rewrite Rsum_app, IH. reflexivity. Qed.
Lemma Rdot_self l : Rdot l l = Rsum (map (fun x => x ^ 2) l).
Proof.
  unfold Rdot. f_equal. rewrite <- (map_id l) at 1 2. rewrite map2_map_same. apply map_ext. intros. ring.
Qed.
Lemma norm_flat n T (M : rmat) : np_norm xops (concat (mrows (xm n T M))) = Fin (frob n T M).
Proof.
  unfold np_norm. cbn [ndot fsqrt xops].
  replace (concat (mrows (xm n T M))) with (map Fin (concat (tab n (fun i => tab T (M i))))).
  - rewrite xdot_fin, Rdot_self.
    assert (E : Rsum (map (fun x => x ^ 2) (concat (tab n (fun i => tab T (M i))))) = Sum n (fun i => Sum T (fun t => M i t ^ 2))).
    { rewrite concat_map, Rsum_concat, !map_tab. unfold Sum at 1. f_equal. apply tab_ext. intros i Hi. rewrite map_tab. reflexivity. }
    rewrite E, xsqrt_fin; [reflexivity|]. apply Sum_nonneg. intros. apply Sum_nonneg. intros. apply pow2_ge_0.
  - rewrite concat_map, map_tab. unfold xm, tabm. cbn [mrows]. f_equal. apply tab_ext. intros. rewrite map_tab. reflexivity.
Qed.
Lemma matmul_2 n p T X W : np_matmul xops (xm n p X) (T2 (xm p T W)) = PyRet (T2 (xm n T (lin_mt p X W))).
Proof.
  unfold np_matmul. change (mnc (xm n p X)) with p. change (mnr (xm p T W)) with p. change (mnc (xm p T W)) with T. change (mnr (xm n p X)) with n.
  rewrite Nat.eqb_refl. do 2 f_equal. unfold xm. rewrite cols_tabm. unfold tabm. cbn [mrows]. rewrite map_tab. f_equal. apply tab_ext. intros i Hi.
  rewrite map_tab. apply tab_ext. intros t Ht. cbn [gdot xops]. apply xdot_tab.
Qed.
Lemma matmul_1 n p X w : np_matmul xops (xm n p X) (T1 (xv p w)) = PyRet (T1 (xv n (lin p X w))).
Proof.
  unfold np_matmul. change (mnc (xm n p X)) with p. unfold xv at 1. rewrite tab_length, Nat.eqb_refl. do 2 f_equal.
  unfold xm, tabm. cbn [mrows]. rewrite map_tab. apply tab_ext. intros i Hi. cbn [ndot xops]. apply xdot_tab.
Qed.
Lemma iadd_fin n T (Y E : rmat) : np_iadd xops (T2 (xm n T Y)) (xm n T E) = PyRet (T2 (xm n T (fun i t => Y i t + E i t))).
Proof.
  unfold np_iadd. change (mnc (xm n T E)) with T. change (mnc (xm n T Y)) with T. change (mnr (xm n T Y)) with n. rewrite Nat.eqb_refl.
  do 2 f_equal. unfold xm, tabm. cbn [mrows]. rewrite map2_tab. f_equal. apply tab_ext. intros i Hi. rewrite map2_tab. reflexivity.
Qed.

(** *** simulated coefficients *)
Definition setrow (W : rmat) (s : nat) (v : nat -> R) : rmat := fun j t => if (j =? s)%nat then v t else W j t.
Definition setrows (V : rmat) (l : list (nat * nat)) (W : rmat) : rmat := fold_left (fun W ks => setrow W (snd ks) (V (fst ks))) l W.
Lemma setrows_fin p T (d : draws xr) (V : rmat) l : (forall k t, d_w d k t = Fin (V k t)) -> (forall ks, In ks l -> (snd ks < p)%nat) -> forall W : rmat,
  fold_left (fun rows ks => upd rows (snd ks) (randn T (d_w d (fst ks)))) l (mrows (xm p T W)) = mrows (xm p T (setrows V l W)).
Proof.
  intros HV. induction l as [|[k s] l IH]; intros Hl W; [reflexivity|]. cbn [fold_left fst snd].
  change (setrows V ((k, s) :: l) W) with (setrows V l (setrow W s (V k))). rewrite <- IH by (intros; apply Hl; right; auto). f_equal. unfold xm, tabm. cbn [mrows].
  rewrite upd_tab by (apply (Hl (k, s)); left; reflexivity). apply tab_ext. intros j Hj. unfold setrow. destruct (Nat.eqb_spec j s); [|reflexivity].
  unfold randn. apply tab_ext. intros t Ht. apply HV.
Qed.
Lemma setrows_out V l : forall W j, ~ In j (map snd l) -> setrows V l W j = W j.
Proof.
  induction l as [|[k s] l IH]; intros W j Hj; [reflexivity|]. cbn [setrows fold_left fst snd]. unfold setrows in IH. rewrite IH by (intro; apply Hj; right; auto).
  unfold setrow. destruct (Nat.eqb_spec j s); [|reflexivity]. exfalso. apply Hj. left. auto.
Qed.
Lemma setrows_in V l : forall W k s, NoDup (map snd l) -> In (k, s) l -> setrows V l W s = V k.
Proof.
  induction l as [|[k' s'] l IH]; intros W k s ND Hin; [destruct Hin|]. cbn [map snd] in ND. apply NoDup_cons_iff in ND as [Hn ND'].
  cbn [setrows fold_left fst snd]. destruct Hin as [E|Hin].
  - injection E as -> ->. fold (setrows V l (setrow W s (V k))). rewrite setrows_out by auto. unfold setrow. rewrite Nat.eqb_refl. reflexivity.
  - apply IH; auto.
Qed.
Lemma combine_snd {A B} (a : list A) (b : list B) : length a = length b -> map snd (combine a b) = b.
Proof. revert b. induction a as [|x a IH]; intros [|y b] H; simpl in *; try discriminate; auto. f_equal. apply IH. lia. Qed.
Lemma coefficients_fin p T nnz d G V N : finite_draws d G V N -> fair_choice d -> (nnz <= p)%nat ->
  exists W, py_coefficients xops p T nnz d = xm p T W /\
    (forall j, ~ In j (d_choice d p nnz) -> forall t, W j t = 0) /\
    (forall k, (k < nnz)%nat -> forall t, W (nth k (d_choice d p nnz) 0%nat) t = V k t).
Proof.
  intros (_ & HV & _) HC Hz. destruct (HC p nnz Hz) as (HL & ND & HR). set (sup := d_choice d p nnz) in *. set (l := combine (seq 0 nnz) sup).
  assert (Es : map snd l = sup) by (apply combine_snd; rewrite seq_length; lia).
  exists (setrows V l (fun _ _ => 0)). split; [|split].
  - unfold py_coefficients. fold sup. fold l. change (repeat (repeat (f0 xops) T) p) with (mrows (mfill (Fin 0) p T)). rewrite mfill_tabm.
    change (tabm p T (fun _ _ => Fin 0)) with (xm p T (fun _ _ => 0)). rewrite (setrows_fin p T d V l HV); [reflexivity|].
    intros ks Hks. apply HR. rewrite <- Es. apply in_map. auto.
  - intros j Hj t. rewrite setrows_out by (rewrite Es; auto). reflexivity.
  - intros k Hk t. rewrite (setrows_in V l _ k (nth k sup 0%nat)); [reflexivity|rewrite Es; auto|].
    unfold l. replace (k, nth k sup 0%nat) with (nth k (combine (seq 0 nnz) sup) (0%nat, 0%nat)).
    + apply nth_In. rewrite combine_length, seq_length. lia.
    + rewrite combine_nth by (rewrite seq_length; lia). rewrite seq_nth by lia. reflexivity.
Qed.
Lemma int_part_nat r : 0 <= r -> INR (Z.to_nat (Int_part r)) <= r < INR (Z.to_nat (Int_part r)) + 1.
Proof.
  intros Hr. destruct (base_Int_part r) as [H1 H2]. assert (0 <= Int_part r)%Z.
  { apply Z.lt_succ_r. apply lt_IZR. rewrite succ_IZR. lra. }
  rewrite INR_IZR_INZ, Z2Nat.id by auto. lra.
Qed.
Lemma nnz_bounds density p : 0 < density <= 1 -> let nnz := xint (fmul xops (Fin density) (fcast xops p)) in
  INR nnz <= density * INR p < INR nnz + 1 /\ (nnz <= p)%nat.
Proof.
  intros Hd nnz. assert (0 <= density * INR p) by (apply Rmult_le_pos; [lra|apply pos_INR]).
  pose proof (int_part_nat _ H) as B. change (Z.to_nat (Int_part (density * INR p))) with nnz in B. split; [exact B|].
  apply INR_le. pose proof (pos_INR p). nra.
Qed.

(** *** the whole function *)
Definition supplied (w : option (targets xr)) (p T : nat) (W : rmat) (d : draws xr) (nnz : nat) : Prop :=
  match w with Some w => w = T2 (xm p T W) | None => py_coefficients xops p T nnz d = xm p T W end.
Lemma range_ok corr density : 0 <= corr < 1 -> 0 < density <= 1 ->
  fle xops (f0 xops) (Fin corr) && flt xops (Fin corr) (f1 xops) = true /\ flt xops (f0 xops) (Fin density) && fle xops (Fin density) (f1 xops) = true.
Proof.
  intros H1 H2. cbn. rewrite !(proj2 (Rltb_spec _ _)), !(proj2 (Rleb_spec _ _)) by lra. auto.
Qed.
Lemma make_noise n p T corr snr density w d G V N W : 0 <= corr < 1 -> 0 < density <= 1 -> (1 <= p)%nat -> snr <> 0 ->
  finite_draws d G V N -> frob n T N <> 0 -> supplied w p T W d (xint (fmul xops (Fin density) (fcast xops p))) ->
  let X := design_of corr p G in let F := lin_mt p X W in
  let Y := fun i t => F i t + N i t / frob n T N * frob n T F / snr in
  exists tY tW, py_make_correlated_data xops xint n p T (Fin corr) (Fin snr) (Fin density) w d = PyRet (xm n p X, tY, tW) /\ returned n T Y tY /\ returned p T W tW.
Proof.
  intros Hc Hd Hp Hs (HG & HV & HN) Hf HW X F Y. unfold py_make_correlated_data. destruct (range_ok corr density Hc Hd) as [-> ->]. cbn [negb].
  rewrite (design_fin corr n p G) by auto. cbn [pybind]. fold X.
  assert (Ew : (match w with Some w => w | None => T2 (py_coefficients xops p T (xint (fmul xops (Fin density) (fcast xops p))) d) end) = T2 (xm p T W)).
  { unfold supplied in HW. destruct w; [auto|]. rewrite HW. reflexivity. }
  rewrite Ew, matmul_2. cbn [pybind]. fold F. change (feq xops (Fin snr) (finf xops)) with false. cbv iota.
  assert (En : randn2 n T (d_noise d) = xm n T N).
  { unfold randn2, xm, tabm. f_equal. change (map ?f (seq 0 n)) with (tab n f). apply tab_ext. intros i Hi. unfold randn. apply tab_ext. intros t Ht. apply HN. }
  rewrite En. change (np_ravel (T2 (xm n T F))) with (concat (mrows (xm n T F))). rewrite !norm_flat.
  replace (Mat n T _) with (xm n T (fun i t => N i t / frob n T N * frob n T F / snr)).
  2:{ unfold xm, tabm. cbn [mrows]. f_equal. rewrite map_tab. apply tab_ext. intros i Hi. rewrite map_tab. apply tab_ext. intros t Ht.
      cbn [fdiv fmul xops]. rewrite (xdiv_fin _ _ Hf). cbn [xmul]. rewrite xdiv_fin; auto. }
  rewrite iadd_fin. cbn [pybind]. fold Y. unfold returned. destruct (Nat.eqb_spec T 1) as [->|HT].
  - rewrite !ravel_1. eauto.
  - eauto.
Qed.
Lemma make_exact n p T corr density w d G V N W : 0 <= corr < 1 -> 0 < density <= 1 -> (1 <= p)%nat ->
  finite_draws d G V N -> supplied w p T W d (xint (fmul xops (Fin density) (fcast xops p))) ->
  let X := design_of corr p G in
  exists tY tW, py_make_correlated_data xops xint n p T (Fin corr) PInf (Fin density) w d = PyRet (xm n p X, tY, tW) /\ returned n T (lin_mt p X W) tY /\ returned p T W tW.
Proof.
  intros Hc Hd Hp (HG & HV & HN) HW X. unfold py_make_correlated_data. destruct (range_ok corr density Hc Hd) as [-> ->]. cbn [negb].
  rewrite (design_fin corr n p G) by auto. cbn [pybind]. fold X.
  assert (Ew : (match w with Some w => w | None => T2 (py_coefficients xops p T (xint (fmul xops (Fin density) (fcast xops p))) d) end) = T2 (xm p T W)).
  { unfold supplied in HW. destruct w; [auto|]. rewrite HW. reflexivity. }
  rewrite Ew, matmul_2. cbn [pybind]. change (feq xops PInf (finf xops)) with true. cbv iota. cbn [pybind].
  unfold returned. destruct (Nat.eqb_spec T 1) as [->|HT].
  - rewrite !ravel_1. eauto.
  - eauto.
Qed.
Lemma frob_scale n T (N : rmat) a : frob n T (fun i t => N i t * a) = Rabs a * frob n T N.
Proof.
  unfold frob. rewrite <- sqrt_Rsqr_abs, <- sqrt_mult_alt by apply Rle_0_sqr. f_equal. rewrite <- Sum_scal. apply Sum_ext. intros i Hi.
  rewrite <- Sum_scal. apply Sum_ext. intros t Ht. unfold Rsqr. ring.
Qed.
Lemma frob_nonneg n T E : 0 <= frob n T E. Proof. apply sqrt_pos. Qed.
Lemma frob_ext n T E E' : (forall i t, (i < n)%nat -> (t < T)%nat -> E i t = E' i t) -> frob n T E = frob n T E'.
Proof. intros H. unfold frob. f_equal. apply Sum_ext. intros i Hi. apply Sum_ext. intros t Ht. rewrite H; auto. Qed.
Lemma frob_nonzero n T (N : rmat) i t : (i < n)%nat -> (t < T)%nat -> N i t <> 0 -> frob n T N <> 0.
Proof.
  intros Hi Ht H E. unfold frob in E. apply sqrt_eq_0 in E.
  - assert (A : forall k, (k < n)%nat -> 0 <= Sum T (fun t => N k t ^ 2)) by (intros; apply Sum_nonneg; intros; apply pow2_ge_0).
    pose proof (Sum_nonneg_zero n _ A E i Hi) as B. cbv beta in B.
    assert (C : forall s, (s < T)%nat -> 0 <= N i s ^ 2) by (intros; apply pow2_ge_0). pose proof (Sum_nonneg_zero T _ C B t Ht) as D. cbv beta in D. nra.
  - apply Sum_nonneg. intros. apply Sum_nonneg. intros. apply pow2_ge_0.
Qed.
Lemma frob_zero n T : frob n T (fun _ _ => 0) = 0.
Proof. unfold frob. rewrite Sum_zero; [apply sqrt_0|]. intros. apply Sum_zero. intros. ring. Qed.
Lemma snr_ratio n T (N F : rmat) snr : snr <> 0 -> frob n T N <> 0 ->
  Rabs snr * frob n T (fun i t => N i t / frob n T N * frob n T F / snr) = frob n T F.
Proof.
  intros Hs Hf. rewrite (frob_ext n T _ (fun i t => N i t * (frob n T F / frob n T N / snr))) by (intros; field; auto).
  rewrite frob_scale. unfold Rdiv. rewrite !Rabs_mult, !Rabs_inv by auto.
  rewrite (Rabs_right (frob n T F)), (Rabs_right (frob n T N)) by (apply Rle_ge, frob_nonneg). assert (Rabs snr <> 0) by (apply Rabs_no_R0; auto). field; auto.
Qed.

(** *** statements *)
Lemma toeplitz corr p : 0 <= corr < 1 -> (1 <= p)%nat ->
  exists C : rmat, (forall j l, (j < l)%nat -> C j l = 0) /\
    (forall j k, (j < p)%nat -> (k < p)%nat -> Sum p (fun l => C j l * C k l) = corr ^ distance j k) /\
    forall n T snr density w d G V N X Y W, finite_draws d G V N ->
      py_make_correlated_data xops xint n p T (Fin corr) snr density w d = PyRet (X, Y, W) ->
      X = xm n p (fun i j => Sum p (fun l => C j l * G l i)).
Proof.
  intros Hc Hp. exists (arC corr (sqrt (1 - corr ^ 2))).
  assert (S1 : corr ^ 2 + sqrt (1 - corr ^ 2) ^ 2 = 1) by (rewrite pow2_sqrt by nra; ring).
  split; [intros; apply arC_upper; auto|]. split; [intros; apply arC_toeplitz; auto|].
  intros n T snr density w d G V N X Y W (HG & _) H. unfold py_make_correlated_data in H.
  destruct (negb (fle xops _ _ && _)); [discriminate|]. destruct (negb (flt xops _ _ && _)); [discriminate|].
  rewrite (design_fin corr n p G) in H by auto. cbn [pybind] in H.
  destruct (np_matmul xops _ _) as [Y1|]; [|discriminate]. cbn [pybind] in H.
  match type of H with pybind ?m _ = _ => destruct m as [Y2|]; [|discriminate] end. cbn [pybind] in H.
  destruct (T =? 1)%nat; injection H as <- _ _; reflexivity.
Qed.
Lemma snr_given n p T corr snr density d G V N W i0 t0 : 0 <= corr < 1 -> 0 < density <= 1 -> (1 <= p)%nat -> snr <> 0 ->
  finite_draws d G V N -> (i0 < n)%nat -> (t0 < T)%nat -> N i0 t0 <> 0 ->
  exists X Y E tY tW, py_make_correlated_data xops xint n p T (Fin corr) (Fin snr) (Fin density) (Some (T2 (xm p T W))) d = PyRet (xm n p X, tY, tW) /\
    returned n T Y tY /\ returned p T W tW /\
    (forall i t, Y i t = lin_mt p X W i t + E i t) /\ Rabs snr * frob n T E = frob n T (lin_mt p X W).
Proof.
  intros Hc Hd Hp Hs HF Hi Ht HN. pose proof (frob_nonzero n T N i0 t0 Hi Ht HN) as Hf.
  destruct (make_noise n p T corr snr density (Some (T2 (xm p T W))) d G V N W Hc Hd Hp Hs HF Hf eq_refl) as (tY & tW & H1 & H2 & H3).
  do 5 eexists. split; [exact H1|]. split; [exact H2|]. split; [exact H3|]. split; [intros; reflexivity|]. apply snr_ratio; auto.
Qed.
Lemma snr_simulated n p T corr snr density d G V N i0 t0 : 0 <= corr < 1 -> 0 < density <= 1 -> (1 <= p)%nat -> snr <> 0 ->
  finite_draws d G V N -> fair_choice d -> (i0 < n)%nat -> (t0 < T)%nat -> N i0 t0 <> 0 ->
  exists X Y W E S tY tW, py_make_correlated_data xops xint n p T (Fin corr) (Fin snr) (Fin density) None d = PyRet (xm n p X, tY, tW) /\
    returned n T Y tY /\ returned p T W tW /\
    (forall i t, Y i t = lin_mt p X W i t + E i t) /\ Rabs snr * frob n T E = frob n T (lin_mt p X W) /\
    NoDup S /\ (forall j, In j S -> (j < p)%nat) /\ INR (length S) <= density * INR p < INR (length S) + 1 /\
    (forall j, ~ In j S -> forall t, W j t = 0) /\ (forall k, (k < length S)%nat -> forall t, W (nth k S 0%nat) t = V k t).
Proof.
  intros Hc Hd Hp Hs HF HC Hi Ht HN. pose proof (frob_nonzero n T N i0 t0 Hi Ht HN) as Hf.
  destruct (nnz_bounds density p Hd) as [Hb Hz]. destruct (coefficients_fin p T _ d G V N HF HC Hz) as (W & EW & W1 & W2).
  destruct (make_noise n p T corr snr density None d G V N W Hc Hd Hp Hs HF Hf EW) as (tY & tW & H1 & H2 & H3).
  destruct (HC p _ Hz) as (HL & ND & HR).
  do 3 eexists. eexists. exists (d_choice d p (xint (fmul xops (Fin density) (fcast xops p)))). do 2 eexists. split; [exact H1|]. split; [exact H2|]. split; [exact H3|].
  rewrite HL. split; [intros; reflexivity|]. split; [apply snr_ratio; auto|]. auto.
Qed.
Lemma noise_free n p T corr density d G V N W : 0 <= corr < 1 -> 0 < density <= 1 -> (1 <= p)%nat -> finite_draws d G V N ->
  exists X tY tW, py_make_correlated_data xops xint n p T (Fin corr) PInf (Fin density) (Some (T2 (xm p T W))) d = PyRet (xm n p X, tY, tW) /\
    returned n T (lin_mt p X W) tY /\ returned p T W tW.
Proof.
  intros Hc Hd Hp HF. destruct (make_exact n p T corr density (Some (T2 (xm p T W))) d G V N W Hc Hd Hp HF eq_refl) as (tY & tW & H). eauto.
Qed.
(** too low a density: no coefficient at all, and the noise vanishes with the signal *)
Lemma sparse_to_nothing n p T corr snr density d G V N i0 t0 : 0 <= corr < 1 -> 0 < density <= 1 -> (1 <= p)%nat -> density * INR p < 1 -> snr <> 0 ->
  finite_draws d G V N -> fair_choice d -> (i0 < n)%nat -> (t0 < T)%nat -> N i0 t0 <> 0 ->
  exists X tY tW, py_make_correlated_data xops xint n p T (Fin corr) (Fin snr) (Fin density) None d = PyRet (xm n p X, tY, tW) /\
    returned n T (fun _ _ => 0) tY /\ returned p T (fun _ _ => 0) tW.
Proof.
  intros Hc Hd Hp Hl Hs HF HC Hi Ht HN. pose proof (frob_nonzero n T N i0 t0 Hi Ht HN) as Hf.
  destruct (nnz_bounds density p Hd) as [Hb Hz]. set (nnz := xint (fmul xops (Fin density) (fcast xops p))) in *.
  assert (E0 : nnz = 0%nat). { destruct nnz as [|m]; auto. rewrite S_INR in Hb. pose proof (pos_INR m). lra. }
  assert (EW : py_coefficients xops p T nnz d = xm p T (fun _ _ => 0)).
  { rewrite E0. unfold py_coefficients. cbn [seq combine fold_left]. change (Mat p T (repeat (repeat (f0 xops) T) p)) with (mfill (Fin 0) p T). apply mfill_tabm. }
  destruct (make_noise n p T corr snr density None d G V N (fun _ _ => 0) Hc Hd Hp Hs HF Hf EW) as (tY & tW & H1 & H2 & H3).
  exists (design_of corr p G), tY, tW. split; [exact H1|]. split; [|exact H3]. unfold returned in *. rewrite H2.
  assert (Z : forall i t, lin_mt p (design_of corr p G) (fun _ _ => 0) i t = 0) by (intros; unfold lin_mt; apply Sum_zero; intros; ring).
  assert (FZ : frob n T (lin_mt p (design_of corr p G) (fun _ _ => 0)) = 0) by (rewrite (frob_ext n T _ (fun _ _ => 0)) by (intros; apply Z); apply frob_zero).
  destruct (T =? 1)%nat; f_equal.
  - apply tab_ext. intros i _. f_equal. rewrite Z, FZ. unfold Rdiv. ring.
  - apply xm_ext. intros i t _ _. rewrite Z, FZ. unfold Rdiv. ring.
Qed.
(** the documented shape of [w_true] *)
Lemma documented_shape n p T corr snr density w d G V N : 0 <= corr < 1 -> 0 < density <= 1 -> (1 <= p)%nat -> finite_draws d G V N ->
  py_make_correlated_data xops xint n p T (Fin corr) (Fin snr) (Fin density) (Some (T1 (xv p w))) d = PyRaise ValueErr.
Proof.
  intros Hc Hd Hp (HG & HV & HN). unfold py_make_correlated_data. destruct (range_ok corr density Hc Hd) as [-> ->]. cbn [negb].
  rewrite (design_fin corr n p G) by auto. cbn [pybind]. rewrite matmul_1. reflexivity.
Qed.
Lemma out_of_range {F} (o : FOps F) int n p T corr snr density w d :
  fle o (f0 o) corr && flt o corr (f1 o) = false \/ flt o (f0 o) density && fle o density (f1 o) = false ->
  py_make_correlated_data o int n p T corr snr density w d = PyRaise ValueErr.
Proof.
  unfold py_make_correlated_data. intros [->| ->]; [reflexivity|]. destruct (negb _); reflexivity.
Qed.

(** *** test helpers *)
Lemma all_close_iff x y delta : assert_array_all_close xops x y delta = Passed <->
  length x = length y /\ forall i, (i < length x)%nat -> xle (xabs (xsub (nth i x NaN) (nth i y NaN))) delta = true.
Proof.
  unfold assert_array_all_close. destruct (Nat.eqb_spec (length x) (length y)) as [E|E]; cbn [negb].
  - destruct (existsb _ _) eqn:B.
    + split; [discriminate|]. intros [_ H]. exfalso. apply existsb_exists in B as ([a b] & Hin & Hne). apply In_nth with (d := (NaN, NaN)) in Hin as (i & Hi & En).
      rewrite combine_length in Hi. rewrite combine_nth in En by auto. injection En as <- <-. unfold abs_diff_ne in Hne. cbn [fst snd fle fabs fsub xops] in Hne.
      rewrite H in Hne by lia. discriminate.
    + split; [|reflexivity]. intros _. split; auto. intros i Hi.
      destruct (xle _ _) eqn:L; auto. exfalso. assert (existsb (fun p => abs_diff_ne xops (fst p) (snd p) delta) (combine x y) = true); [|congruence].
      apply existsb_exists. exists (nth i x NaN, nth i y NaN). split.
      * rewrite <- combine_nth by auto. apply nth_In. rewrite combine_length. lia.
      * unfold abs_diff_ne. cbn [fst snd fle fabs fsub xops]. rewrite L. reflexivity.
  - split; [discriminate|]. intros [? _]. contradiction.
Qed.
Lemma all_close_fin n x y delta : assert_array_all_close xops (xv n x) (xv n y) (Fin delta) = Passed <-> forall i, (i < n)%nat -> Rabs (x i - y i) <= delta.
Proof.
  rewrite all_close_iff. unfold xv. rewrite !tab_length. split.
  - intros [_ H] i Hi. specialize (H i Hi). rewrite !nth_tab in H by auto. cbn [xsub xabs] in H. rewrite xle_fin in H. apply Rleb_spec. auto.
  - intros H. split; auto. intros i Hi. rewrite !nth_tab by auto. cbn [xsub xabs]. rewrite xle_fin. apply Rleb_spec. auto.
Qed.
Lemma all_close_special x y delta i : (i < length x)%nat -> (forall a, nth i x NaN <> Fin a) \/ (forall a, nth i y NaN <> Fin a) ->
  assert_array_all_close xops x y (Fin delta) = Failed.
Proof.
  intros Hi H. destruct (assert_array_all_close xops x y (Fin delta)) eqn:E; [|reflexivity]. exfalso.
  apply all_close_iff in E as [EL E]. specialize (E i Hi). destruct (nth i x NaN) as [a| | |], (nth i y NaN) as [b| | |]; cbn in E; try discriminate.
  destruct H as [H|H]; [apply (H a)|apply (H b)]; reflexivity.
Qed.
Lemma all_close2_fin r c x y delta : assert_array2d_all_close xops (xm r c x) (xm r c y) (Fin delta) = Passed <->
  forall i j, (i < r)%nat -> (j < c)%nat -> Rabs (x i j - y i j) <= delta.
Proof.
  unfold assert_array2d_all_close. cbn [mnr mnc xm tabm mrows]. change (mnr (xm r c y)) with r. change (mnc (xm r c y)) with c. rewrite !Nat.eqb_refl. cbn [negb].
  assert (K : existsb (fun p => existsb (fun q => abs_diff_ne xops (fst q) (snd q) (Fin delta)) (combine (fst p) (snd p)))
     (combine (tab r (fun i => tab c (fun j => Fin (x i j)))) (tab r (fun i => tab c (fun j => Fin (y i j))))) = true <->
     exists i j, (i < r)%nat /\ (j < c)%nat /\ delta < Rabs (x i j - y i j)).
  { rewrite existsb_exists. split.
    - intros ([a b] & Hin & H). apply In_nth with (d := ([], [])) in Hin as (i & Hi & En). rewrite combine_length, !tab_length in Hi.
      rewrite combine_nth in En by (rewrite !tab_length; auto). rewrite !nth_tab in En by lia. injection En as <- <-. cbn [fst snd] in H.
      apply existsb_exists in H as ([a b] & Hin & H). apply In_nth with (d := (NaN, NaN)) in Hin as (j & Hj & En). rewrite combine_length, !tab_length in Hj.
      rewrite combine_nth in En by (rewrite !tab_length; auto). rewrite !nth_tab in En by lia. injection En as <- <-. cbn [fst snd] in H.
      exists i, j. split; [lia|]. split; [lia|]. unfold abs_diff_ne in H. cbn [fle fabs fsub xops xabs xsub] in H. rewrite xle_fin in H. apply negb_true_iff, Rleb_false in H. auto.
    - intros (i & j & Hi & Hj & H). exists (tab c (fun j => Fin (x i j)), tab c (fun j => Fin (y i j))). split.
      + rewrite <- (nth_tab r (fun i => tab c (fun j => Fin (x i j))) i [] Hi), <- (nth_tab r (fun i => tab c (fun j => Fin (y i j))) i [] Hi) at 1.
        rewrite <- combine_nth by (rewrite !tab_length; auto). apply nth_In. rewrite combine_length, !tab_length. lia.
      + cbn [fst snd]. apply existsb_exists. exists (Fin (x i j), Fin (y i j)). split.
        * rewrite <- (nth_tab c (fun j => Fin (x i j)) j NaN Hj), <- (nth_tab c (fun j => Fin (y i j)) j NaN Hj) at 1.
          rewrite <- combine_nth by (rewrite !tab_length; auto). apply nth_In. rewrite combine_length, !tab_length. lia.
        * unfold abs_diff_ne. cbn [fst snd fle fabs fsub xops xabs xsub]. rewrite xle_fin. apply negb_true_iff, Rleb_false. auto. }
  destruct (existsb _ _) eqn:B; split; try discriminate; try reflexivity.
  - intros H. exfalso. destruct (proj1 K eq_refl) as (i & j & Hi & Hj & L). specialize (H i j Hi Hj). lra.
  - intros _ i j Hi Hj. apply Rnot_lt_le. intros L. assert (false = true); [|discriminate]. apply K. eauto.
Qed.

(** generated data *)
Lemma map_from {A} (f : nat -> A) r : forall s, map f (seq s r) = tab r (fun i => f (s + i)%nat).
Proof.
  induction r as [|r IH]; intros s; [reflexivity|]. unfold tab. cbn [seq map]. rewrite Nat.add_0_r. f_equal.
  rewrite IH, <- seq_shift, map_map. apply map_ext. intros. f_equal. lia.
Qed.
Section Gen.
Variable g : nat -> R.
Let normal : nat -> xr := fun k => Fin (g k).
Lemma chop_fill r c : forall s, chop r c (map normal (seq s (r * c))) = tab c (fun j => xv r (fun i => g (s + j * r + i)%nat)).
Proof.
  induction c as [|c IH]; intros s; [rewrite Nat.mul_0_r; reflexivity|]. cbn [chop]. rewrite firstn_map_r, skipn_map_r, firstn_seq, skipn_seq.
  replace (Nat.min r (r * S c)) with r by nia. replace (r * S c - r)%nat with (r * c)%nat by nia. rewrite IH.
  unfold tab at 2. cbn [seq map]. f_equal.
  - rewrite map_from. apply tab_ext. intros i _. unfold normal. do 2 f_equal. lia.
  - unfold tab. rewrite <- seq_shift, map_map. apply map_ext. intros j. unfold xv. apply tab_ext. intros i _. do 2 f_equal. lia.
Qed.
Lemma reshape_f_fill n p : reshape_f xops n p (fill_random_vector normal (n * p)) = Ret (xm n p (fun i j => g (j * n + i)%nat)).
Proof.
  unfold reshape_f, fill_random_vector. rewrite map_length, seq_length, Nat.eqb_refl. f_equal. rewrite chop_fill. unfold xm, tabm. f_equal.
  change (map ?f (seq 0 n)) with (tab n f). apply tab_ext. intros i Hi. rewrite map_tab. apply tab_ext. intros j Hj. unfold xv. rewrite nth_tab by auto. reflexivity.
Qed.
Lemma reshape_fill n p : reshape n p (fill_random_vector normal (n * p)) = Ret (xm n p (fun i j => g (i * p + j)%nat)).
Proof.
  unfold reshape, fill_random_vector. rewrite map_length, seq_length, Nat.eqb_refl. f_equal. rewrite Nat.mul_comm, chop_fill. reflexivity.
Qed.
Lemma fill_xv n : fill_random_vector normal n = xv n g.
Proof. reflexivity. Qed.
Lemma generated n p : (1 <= p)%nat -> exists X, generate_random_data xops normal n p =
  Ret (xm n p X, xv n (lin p X (fun j => g j + if (j =? 0)%nat then 1 else 0))) /\
  (forall i j, (i < n)%nat -> (j < p)%nat -> X i j = g (j * n + i)%nat).
Proof.
  intros Hp. exists (fun i j => g (j * n + i)%nat). split; auto. unfold generate_random_data. rewrite reshape_f_fill. cbn [bind]. rewrite !fill_xv.
  unfold xm at 1, tabm. cbn [mrows]. rewrite map_tab. unfold vadd, vbin, xv. rewrite !tab_length, Nat.eqb_refl. cbn [bind]. rewrite map2_tab. do 2 f_equal.
  apply tab_ext. intros i Hi. cbn [ndot fadd xops]. rewrite xdot_tab. cbn [xadd]. f_equal. unfold lin.
  rewrite (Sum_ext p (fun j => g (j * n + i)%nat * (g j + (if (j =? 0)%nat then 1 else 0))) (fun j => g (j * n + i)%nat * g j + g (j * n + i)%nat * (if (j =? 0)%nat then 1 else 0))) by (intros; ring).
  rewrite Sum_plus. f_equal. rewrite (Sum_single p _ 0%nat); [simpl; ring|lia|]. intros k _ Hk. destruct (Nat.eqb_spec k 0); [lia|ring].
Qed.
Lemma generated_mtl n p T : exists X W E, generate_random_data_mtl xops normal n p T =
  Ret (xm n p X, xm n T (fun i t => lin_mt p X W i t + E i t)) /\
  (forall i j, (i < n)%nat -> (j < p)%nat -> X i j = g (j * n + i)%nat) /\
  (forall j t, (j < p)%nat -> (t < T)%nat -> W j t = g (j * T + t)%nat) /\
  (forall i t, (i < n)%nat -> (t < T)%nat -> E i t = g (i * T + t)%nat).
Proof.
  exists (fun i j => g (j * n + i)%nat), (fun j t => g (j * T + t)%nat), (fun i t => g (i * T + t)%nat). split; [|auto].
  unfold generate_random_data_mtl. rewrite reshape_f_fill, !reshape_fill. cbn [bind].
  replace (combine (mrows (xm n p (fun i j => g (j * n + i)%nat))) (mrows (xm n T (fun i t => g (i * T + t)%nat)))) with (tab n (fun i => (tab p (fun j => Fin (g (j * n + i)%nat)), tab T (fun t => Fin (g (i * T + t)%nat))))).
  2:{ unfold xm, tabm. cbn [mrows]. apply list_eq_nth; [rewrite combine_length, !tab_length; lia|]. intros i d Hi. rewrite tab_length in Hi.
      rewrite (nth_indep _ d ([], [])) by (rewrite tab_length; auto). rewrite nth_tab by auto.
      rewrite (nth_indep _ d ([], [])) by (rewrite combine_length, !tab_length; lia). rewrite combine_nth by (rewrite !tab_length; auto). rewrite !nth_tab by auto. reflexivity. }
  rewrite (mapM_ret _ (fun re => map2 xadd (map (gdot xops (fst re)) (cols (f0 xops) (xm p T (fun j t => g (j * T + t)%nat)))) (snd re))).
  - cbn [bind]. do 2 f_equal. unfold xm, tabm. f_equal. rewrite map_tab. apply tab_ext. intros i Hi. cbn [fst snd]. fold (@tabm xr p T (fun j t => Fin (g (j * T + t)%nat))).
    rewrite cols_tabm, map_tab, map2_tab. apply tab_ext. intros t Ht. cbn [gdot xops]. rewrite xdot_tab. reflexivity.
  - intros re Hre. apply in_tab in Hre as (i & Hi & ->). cbn [fst snd]. unfold vadd, vbin, xm. rewrite cols_tabm, map_length, !tab_length, Nat.eqb_refl. reflexivity.
Qed.
End Gen.
