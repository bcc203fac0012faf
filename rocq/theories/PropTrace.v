(** Properties C81-C83: the course of a single-task run, the maintained fit in floating point, and what a passed test means. *)
From Coq Require Import List ZArith Bool Arith Lia Reals.
From Flocq Require Import Core BinarySingleNaN.
From Verif Require Import Ops Arr MUtils MDatasets MDatafits MPenalties MCd MHyper MEstimators IEEE RSum SpecPen SpecRound SpecData SpecSolve SpecOpt SpecTrace SpecDrift
  PTrace PDriftInst PDriftRun PTraceFit PTraceEx PRoundEx PRunsEx PNullEx2.
Import ListNotations.
Local Open Scope R_scope.

(** *** C81: any arithmetic, any datafit, any penalty with one score per feature *)
Theorem C81_course_of_a_run F DM D P (o : FOps F) (dm : DesignMatrix F DM) (df : Datafit F DM D) (pen : Penalty F P) srt ds d q s w p :
  valid_sort o srt -> one_score_each pen q -> dm_n_features dm (design_matrix ds) = Ret p -> solve o srt dm df pen s ds d q = Ret w ->
  let n := n_samples (dtargets ds) in
  exists d' k Xw, df_initialize df d ds = Ret d' /\ (k <= s_max_iterations s)%nat /\
    rounds o dm df pen ds d' q p n (s_tolerance s) (s_max_epochs s * p) k (zero_state o p n) (w, Xw) /\
    (k = s_max_iterations s \/ tested o df pen ds d' q p (s_tolerance s) true (w, Xw)).
Proof. exact (c81 o dm df pen srt ds d q s w p). Qed.
Print Assumptions C81_course_of_a_run.
Theorem C81_penalties F (o : FOps F) : (forall q, one_score_each (l1_penalty o) q) /\ (forall q, one_score_each (l1l2_penalty o) q) /\ (forall q, one_score_each (mcp_penalty o) q).
Proof. exact (conj (one_l1 o) (conj (one_enet o) (one_mcp o))). Qed.
Print Assumptions C81_penalties.
(** one round out of five suffices in doubles, and the model returned is not zero *)
Example C81_nonvacuous : valid_sort ops64 srt64 /\ (s_max_iterations csolver = 5)%nat /\ dm_n_features (dense_dm ops64) rX = Ret 2%nat /\
  run_example (dense_dm ops64) (quad_dense ops64) rX /\ run_example (sparse_dm ops64) (quad_sparse ops64) rC.
Proof. exact (conj srt64_ok (conj eq_refl (conj eq_refl (conj (okrun_ex _ _ _ okrun_dense) (okrun_ex _ _ _ okrun_sparse))))). Qed.

(** *** C82: the fit carried along by any sequence of coordinate updates, in every IEEE format *)
Theorem C82_fit_drift_dense prec emax Hp Hm m : reduces prec emax Hp Hm m -> let o := ieee_ops prec emax Hp Hm m in
  forall D P (df : Datafit (binary_float prec emax) (mat (binary_float prec emax)) D) (pen : Penalty (binary_float prec emax) P) n p X t d q js s0 s, shaped n p X ->
  origin prec emax o (dense_dm o) (Dataset X t) p n s0 -> foldM (cd_step o (dense_dm o) df pen (Dataset X t) d q) js s0 = Ret s ->
  tracks prec emax (entR prec emax X) p n (history prec emax o (dense_dm o) df pen (Dataset X t) d q p js s0) s.
Proof. exact (fun RD D P df pen n p X t d q js s0 s => c82_dense prec emax Hp Hm m RD df pen n p X t d q js s0 s). Qed.
Print Assumptions C82_fit_drift_dense.
Theorem C82_fit_drift_sparse prec emax Hp Hm m : let o := ieee_ops prec emax Hp Hm m in
  forall D P (df : Datafit (binary_float prec emax) (csc (binary_float prec emax)) D) (pen : Penalty (binary_float prec emax) P) n p cs X t d q js s0 s, stores prec emax n p cs X ->
  origin prec emax o (sparse_dm o) (Dataset X t) p n s0 -> foldM (cd_step o (sparse_dm o) df pen (Dataset X t) d q) js s0 = Ret s ->
  tracks prec emax (storedR prec emax cs) p n (history prec emax o (sparse_dm o) df pen (Dataset X t) d q p js s0) s.
Proof. exact (fun D P df pen n p cs X t d q js s0 s => c82_sparse prec emax Hp Hm m df pen n p cs X t d q js s0 s). Qed.
Print Assumptions C82_fit_drift_sparse.
(** the fit held at the end of a run of the solver, on which the last stopping test was made *)
Theorem C82_run_drift_dense prec emax Hp Hm m : reduces prec emax Hp Hm m -> let o := ieee_ops prec emax Hp Hm m in
  forall D P (df : Datafit (binary_float prec emax) (mat (binary_float prec emax)) D) (pen : Penalty (binary_float prec emax) P) srt n p X t d q s w, valid_sort o srt -> one_score_each pen q ->
  shaped n p X -> n_samples t = n -> solve o srt (dense_dm o) df pen s (Dataset X t) d q = Ret w ->
  exists d' k s0 js Xw, df_initialize df d (Dataset X t) = Ret d' /\ (k <= s_max_iterations s)%nat /\
    (k = s_max_iterations s \/ tested o df pen (Dataset X t) d' q p (s_tolerance s) true (w, Xw)) /\
    origin prec emax o (dense_dm o) (Dataset X t) p n s0 /\ (length js <= k * (s_max_epochs s * p))%nat /\ foldM (cd_step o (dense_dm o) df pen (Dataset X t) d' q) js s0 = Ret (w, Xw) /\
    tracks prec emax (entR prec emax X) p n (history prec emax o (dense_dm o) df pen (Dataset X t) d' q p js s0) (w, Xw).
Proof. exact (fun RD D P df pen srt n p X t d q s w => c82_run_dense prec emax Hp Hm m RD df pen srt n p X t d q s w). Qed.
Print Assumptions C82_run_drift_dense.
Theorem C82_run_drift_sparse prec emax Hp Hm m : let o := ieee_ops prec emax Hp Hm m in
  forall D P (df : Datafit (binary_float prec emax) (csc (binary_float prec emax)) D) (pen : Penalty (binary_float prec emax) P) srt n p cs X t d q s w, valid_sort o srt -> one_score_each pen q ->
  stores prec emax n p cs X -> n_samples t = n -> solve o srt (sparse_dm o) df pen s (Dataset X t) d q = Ret w ->
  exists d' k s0 js Xw, df_initialize df d (Dataset X t) = Ret d' /\ (k <= s_max_iterations s)%nat /\
    (k = s_max_iterations s \/ tested o df pen (Dataset X t) d' q p (s_tolerance s) true (w, Xw)) /\
    origin prec emax o (sparse_dm o) (Dataset X t) p n s0 /\ (length js <= k * (s_max_epochs s * p))%nat /\ foldM (cd_step o (sparse_dm o) df pen (Dataset X t) d' q) js s0 = Ret (w, Xw) /\
    tracks prec emax (storedR prec emax cs) p n (history prec emax o (sparse_dm o) df pen (Dataset X t) d' q p js s0) (w, Xw).
Proof. exact (fun D P df pen srt n p cs X t d q s w => c82_run_sparse prec emax Hp Hm m df pen srt n p cs X t d q s w). Qed.
Print Assumptions C82_run_drift_sparse.
(** four updates from zero end in a nonzero model with a finite fit *)
Example C82_nonvacuous : reduces 53 1024 Hprec64 Hmax64 libm64 /\ valid_sort ops64 srt64 /\ one_score_each (l1_penalty ops64) (L1 (f1 ops64)) /\ n_samples ry = 3%nat /\ shaped 3 2 rX /\ stores 53 1024 3 2 rcs rC /\
  origin 53 1024 ops64 (dense_dm ops64) (Dataset rX ry) 2 3 (zero_state ops64 2 3) /\ origin 53 1024 ops64 (sparse_dm ops64) (Dataset rC ry) 2 3 (zero_state ops64 2 3) /\
  run_example (dense_dm ops64) (quad_dense ops64) rX /\ run_example (sparse_dm ops64) (quad_sparse ops64) rC.
Proof. exact (conj reduces64 (conj srt64_ok (conj (one_l1 ops64 _) (conj eq_refl (conj rX_shaped (conj rC_stores (conj (or_introl eq_refl) (conj (or_introl eq_refl) (conj (okrun_ex _ _ _ okrun_dense) (okrun_ex _ _ _ okrun_sparse)))))))))). Qed.

(** *** C83: unless all iterations were used, the model returned by a Lasso fit in floating point nearly minimises the exact objective *)
Theorem C83_float_lasso_dense prec emax Hp Hm m : reduces prec emax Hp Hm m -> let o := ieee_ops prec emax Hp Hm m in let u := urd prec in
  forall srt n p X t v w, valid_sort o srt -> (Z.of_nat n <= 2 ^ prec)%Z -> (0 < n)%nat -> shaped n p X -> target1_wf n t ->
  finite prec emax (p_alpha v) -> 0 <= B2R (p_alpha v) -> finite prec emax (p_tolerance v) -> lasso_fit_dense o srt v (Dataset X t) = Ret w ->
  let y i := nth i (tgtR prec emax t) 0 in let E := entR prec emax X in
  let obj := objective (loss1 Squared n y) p E (pen1 (LassoPen (B2R (p_alpha v)))) in
  exists d k s0 js Xw, df_initialize (quad_dense o) (quadratic_new o) (Dataset X t) = Ret d /\ (k <= p_max_iterations v)%nat /\
    rounds o (dense_dm o) (quad_dense o) (l1_penalty o) (Dataset X t) d (L1 (p_alpha v)) p n (p_tolerance v) (p_max_epochs v * p) k (zero_state o p n) (w, Xw) /\
    origin prec emax o (dense_dm o) (Dataset X t) p n s0 /\ (length js <= k * (p_max_epochs v * p))%nat /\
    foldM (cd_step o (dense_dm o) (quad_dense o) (l1_penalty o) (Dataset X t) d (L1 (p_alpha v))) js s0 = Ret (w, Xw) /\
    (k = p_max_iterations v \/
     ((forall j g, (j < p)%nat -> df_gradient_j (quad_dense o) d (Dataset X t) Xw j = Ret g -> is_nan g = false) -> (forall x, In x w -> finite prec emax x) ->
      forall eps, (forall j, (j < p)%nat -> B2R (p_tolerance v) + (1 + u) * slack prec emax E p n y (atR prec emax w) (history prec emax o (dense_dm o) (quad_dense o) (l1_penalty o) (Dataset X t) d (L1 (p_alpha v)) p js s0) j <= (1 - u) * eps) ->
      forall z, obj (atR prec emax w) <= obj z + eps * Sum p (fun j => Rabs (atR prec emax w j - z j)))).
Proof. exact (c83_dense prec emax Hp Hm m). Qed.
Print Assumptions C83_float_lasso_dense.
Theorem C83_float_lasso_sparse prec emax Hp Hm m : let o := ieee_ops prec emax Hp Hm m in let u := urd prec in
  forall srt n p cs X t v w, valid_sort o srt -> (Z.of_nat n <= 2 ^ prec)%Z -> (0 < n)%nat -> stores prec emax n p cs X -> target1_wf n t ->
  finite prec emax (p_alpha v) -> 0 <= B2R (p_alpha v) -> finite prec emax (p_tolerance v) -> lasso_fit_sparse o srt v (Dataset X t) = Ret w ->
  let y i := nth i (tgtR prec emax t) 0 in let E := storedR prec emax cs in
  let obj := objective (loss1 Squared n y) p E (pen1 (LassoPen (B2R (p_alpha v)))) in
  exists d k s0 js Xw, df_initialize (quad_sparse o) (quadratic_new o) (Dataset X t) = Ret d /\ (k <= p_max_iterations v)%nat /\
    rounds o (sparse_dm o) (quad_sparse o) (l1_penalty o) (Dataset X t) d (L1 (p_alpha v)) p n (p_tolerance v) (p_max_epochs v * p) k (zero_state o p n) (w, Xw) /\
    origin prec emax o (sparse_dm o) (Dataset X t) p n s0 /\ (length js <= k * (p_max_epochs v * p))%nat /\
    foldM (cd_step o (sparse_dm o) (quad_sparse o) (l1_penalty o) (Dataset X t) d (L1 (p_alpha v))) js s0 = Ret (w, Xw) /\
    (k = p_max_iterations v \/
     ((forall j g, (j < p)%nat -> df_gradient_j (quad_sparse o) d (Dataset X t) Xw j = Ret g -> is_nan g = false) -> (forall x, In x w -> finite prec emax x) ->
      forall eps, (forall j, (j < p)%nat -> B2R (p_tolerance v) + (1 + u) * slack prec emax E p n y (atR prec emax w) (history prec emax o (sparse_dm o) (quad_sparse o) (l1_penalty o) (Dataset X t) d (L1 (p_alpha v)) p js s0) j <= (1 - u) * eps) ->
      forall z, obj (atR prec emax w) <= obj z + eps * Sum p (fun j => Rabs (atR prec emax w j - z j)))).
Proof. exact (c83_sparse prec emax Hp Hm m). Qed.
Print Assumptions C83_float_lasso_sparse.
(** the run of C81's example: finite nonzero model, no gradient is NaN, one round of five used *)
Example C83_nonvacuous : reduces 53 1024 Hprec64 Hmax64 libm64 /\ valid_sort ops64 srt64 /\ shaped 3 2 rX /\ stores 53 1024 3 2 rcs rC /\ target1_wf 3 ry /\
  (finite 53 1024 (p_alpha cpr) /\ 0 <= B2R (p_alpha cpr) /\ finite 53 1024 (p_tolerance cpr) /\ (p_max_iterations cpr = 5)%nat) /\
  lasso_fit_dense ops64 srt64 cpr (Dataset rX ry) = solve ops64 srt64 (dense_dm ops64) (quad_dense ops64) (l1_penalty ops64) csolver (Dataset rX ry) (quadratic_new ops64) (L1 (f1 ops64)) /\
  run_example (dense_dm ops64) (quad_dense ops64) rX /\
  lasso_fit_sparse ops64 srt64 cpr (Dataset rC ry) = solve ops64 srt64 (sparse_dm ops64) (quad_sparse ops64) (l1_penalty ops64) csolver (Dataset rC ry) (quadratic_new ops64) (L1 (f1 ops64)) /\
  run_example (sparse_dm ops64) (quad_sparse ops64) rC.
Proof. exact (conj reduces64 (conj srt64_ok (conj rX_shaped (conj rC_stores (conj eq_refl (conj ex_cpr (conj eq_refl (conj (okrun_ex _ _ _ okrun_dense) (conj eq_refl (okrun_ex _ _ _ okrun_sparse)))))))))). Qed.
