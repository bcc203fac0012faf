(** Property C83 for the elastic net: a fit in floating point that stops early nearly minimises the exact objective. *)
From Coq Require Import List ZArith Bool Arith Lia Reals.
From Flocq Require Import Core BinarySingleNaN.
From Verif Require Import Ops Arr MUtils MDatasets MDatafits MPenalties MCd MHyper MEstimators IEEE RSum SpecPen SpecRound SpecData SpecSolve SpecOpt SpecTrace SpecDrift SpecDriftEnet
  PTraceEnet PTraceEnetEx PTraceEx PRoundEx PRunsEx PNullEx2.
Import ListNotations.
Local Open Scope R_scope.

Theorem C83_float_elastic_net_dense prec emax Hp Hm m : reduces prec emax Hp Hm m -> let o := ieee_ops prec emax Hp Hm m in let u := urd prec in
  forall srt n p X t v w, valid_sort o srt -> (Z.of_nat n <= 2 ^ prec)%Z -> (0 < n)%nat -> shaped n p X -> target1_wf n t ->
  finite prec emax (p_alpha v) -> 0 < B2R (p_alpha v) -> finite prec emax (p_shape v) -> 0 <= B2R (p_shape v) <= 1 -> finite prec emax (p_tolerance v) -> elastic_net_fit_dense o srt v (Dataset X t) = Ret w ->
  let y i := nth i (tgtR prec emax t) 0 in let E := entR prec emax X in let q := L1PlusL2 (p_alpha v) (p_shape v) in
  let obj := objective (loss1 Squared n y) p E (pen1 (EnetPen (B2R (p_alpha v)) (B2R (p_shape v)))) in
  exists d k s0 js Xw, df_initialize (quad_dense o) (quadratic_new o) (Dataset X t) = Ret d /\ (k <= p_max_iterations v)%nat /\
    rounds o (dense_dm o) (quad_dense o) (l1l2_penalty o) (Dataset X t) d q p n (p_tolerance v) (p_max_epochs v * p) k (zero_state o p n) (w, Xw) /\
    origin prec emax o (dense_dm o) (Dataset X t) p n s0 /\ (length js <= k * (p_max_epochs v * p))%nat /\
    foldM (cd_step o (dense_dm o) (quad_dense o) (l1l2_penalty o) (Dataset X t) d q) js s0 = Ret (w, Xw) /\
    (k = p_max_iterations v \/
     ((forall j g, (j < p)%nat -> df_gradient_j (quad_dense o) d (Dataset X t) Xw j = Ret g -> finite prec emax g) -> (forall x, In x w -> finite prec emax x) ->
      forall eps, (forall j, (j < p)%nat -> B2R (p_tolerance v) + (1 + u) * (slack prec emax E p n y (atR prec emax w) (history prec emax o (dense_dm o) (quad_dense o) (l1l2_penalty o) (Dataset X t) d q p js s0) j
                                               + pen_slack prec emax (B2R (p_alpha v)) (B2R (p_shape v)) (atR prec emax w j)) <= (1 - u) * eps) ->
      forall z, obj (atR prec emax w) <= obj z + eps * Sum p (fun j => Rabs (atR prec emax w j - z j)))).
Proof. exact (c83_en_dense prec emax Hp Hm m). Qed.
Print Assumptions C83_float_elastic_net_dense.
Theorem C83_float_elastic_net_sparse prec emax Hp Hm m : let o := ieee_ops prec emax Hp Hm m in let u := urd prec in
  forall srt n p cs X t v w, valid_sort o srt -> (Z.of_nat n <= 2 ^ prec)%Z -> (0 < n)%nat -> stores prec emax n p cs X -> target1_wf n t ->
  finite prec emax (p_alpha v) -> 0 < B2R (p_alpha v) -> finite prec emax (p_shape v) -> 0 <= B2R (p_shape v) <= 1 -> finite prec emax (p_tolerance v) -> elastic_net_fit_sparse o srt v (Dataset X t) = Ret w ->
  let y i := nth i (tgtR prec emax t) 0 in let E := storedR prec emax cs in let q := L1PlusL2 (p_alpha v) (p_shape v) in
  let obj := objective (loss1 Squared n y) p E (pen1 (EnetPen (B2R (p_alpha v)) (B2R (p_shape v)))) in
  exists d k s0 js Xw, df_initialize (quad_sparse o) (quadratic_new o) (Dataset X t) = Ret d /\ (k <= p_max_iterations v)%nat /\
    rounds o (sparse_dm o) (quad_sparse o) (l1l2_penalty o) (Dataset X t) d q p n (p_tolerance v) (p_max_epochs v * p) k (zero_state o p n) (w, Xw) /\
    origin prec emax o (sparse_dm o) (Dataset X t) p n s0 /\ (length js <= k * (p_max_epochs v * p))%nat /\
    foldM (cd_step o (sparse_dm o) (quad_sparse o) (l1l2_penalty o) (Dataset X t) d q) js s0 = Ret (w, Xw) /\
    (k = p_max_iterations v \/
     ((forall j g, (j < p)%nat -> df_gradient_j (quad_sparse o) d (Dataset X t) Xw j = Ret g -> finite prec emax g) -> (forall x, In x w -> finite prec emax x) ->
      forall eps, (forall j, (j < p)%nat -> B2R (p_tolerance v) + (1 + u) * (slack prec emax E p n y (atR prec emax w) (history prec emax o (sparse_dm o) (quad_sparse o) (l1l2_penalty o) (Dataset X t) d q p js s0) j
                                               + pen_slack prec emax (B2R (p_alpha v)) (B2R (p_shape v)) (atR prec emax w j)) <= (1 - u) * eps) ->
      forall z, obj (atR prec emax w) <= obj z + eps * Sum p (fun j => Rabs (atR prec emax w j - z j)))).
Proof. exact (c83_en_sparse prec emax Hp Hm m). Qed.
Print Assumptions C83_float_elastic_net_sparse.
(** finite nonzero model, finite gradients, one round of five used *)
Example C83_elastic_net_nonvacuous : reduces 53 1024 Hprec64 Hmax64 libm64 /\ valid_sort ops64 srt64 /\ shaped 3 2 rX /\ stores 53 1024 3 2 rcs rC /\ target1_wf 3 ry /\
  ((finite 53 1024 (p_alpha epr) /\ 0 < B2R (p_alpha epr)) /\ (finite 53 1024 (p_shape epr) /\ 0 <= B2R (p_shape epr) <= 1) /\ finite 53 1024 (p_tolerance epr) /\ (p_max_iterations epr = 5)%nat) /\
  elastic_net_fit_dense ops64 srt64 epr (Dataset rX ry) = solve ops64 srt64 (dense_dm ops64) (quad_dense ops64) (l1l2_penalty ops64) csolver (Dataset rX ry) (quadratic_new ops64) eq64 /\
  run_example_en (dense_dm ops64) (quad_dense ops64) rX /\
  elastic_net_fit_sparse ops64 srt64 epr (Dataset rC ry) = solve ops64 srt64 (sparse_dm ops64) (quad_sparse ops64) (l1l2_penalty ops64) csolver (Dataset rC ry) (quadratic_new ops64) eq64 /\
  run_example_en (sparse_dm ops64) (quad_sparse ops64) rC.
Proof. exact (conj reduces64 (conj srt64_ok (conj rX_shaped (conj rC_stores (conj eq_refl (conj ex_epr (conj eq_refl (conj (okrun_en_ex _ _ _ okrun_en_dense) (conj eq_refl (okrun_en_ex _ _ _ okrun_en_sparse)))))))))). Qed.
