(** C84-C87: reused datafits, labels of samples, stored layout, representation of targets.  Any arithmetic unless said otherwise. *)
From Coq Require Import List ZArith Bool Arith.
From Flocq Require Import BinarySingleNaN.
From Verif Require Import Ops Arr IEEE SpecSolve SpecLayout MUtils MDatasets MDatafits MDatafitsMT MPenalties MBlockPenalties MCd MBcd MHyper MEstimators PFloat PRunsEx PTraceEx PLayout PLayoutEx.
Import ListNotations.

(** *** C33: validating by [check_unwrap] panics exactly on the parameters that [check_ref] refuses *)
Theorem C33_check_unwrap (F : Type) (o : FOps F) (p : params F) :
  Forall (fun chk => (forall q, check_unwrap chk p = Ret q <-> chk p = Ok q) /\ (check_unwrap chk p = Panic PUnwrap <-> exists e, chk p = Err e) /\ ((exists q, check_unwrap chk p = Ret q) \/ check_unwrap chk p = Panic PUnwrap))
    [lasso_check_ref o; mt_lasso_check_ref o; mcp_check_ref o; block_mcp_check_ref o; elastic_net_check_ref o; mt_elastic_net_check_ref o].
Proof. exact (unwrap_all o p). Qed.
Print Assumptions C33_check_unwrap.
Example C33_check_unwrap_nonvacuous : check_unwrap (lasso_check_ref ops64) rpr = Ret rpr /\ check_unwrap (lasso_check_ref ops64) (set_K 0 rpr) = Panic PUnwrap.
Proof. split; reflexivity. Qed.

(** *** C84: the state of the datafit object handed to the solver has no influence *)
Theorem C84_datafits_can_be_reused (F : Type) (o : FOps F) srt sv :
  (forall P (pen : Penalty F P) q,
    (forall ds d1 d2, solve o srt (dense_dm o) (quad_dense o) pen sv ds d1 q = solve o srt (dense_dm o) (quad_dense o) pen sv ds d2 q) /\
    (forall ds d1 d2, solve o srt (sparse_dm o) (quad_sparse o) pen sv ds d1 q = solve o srt (sparse_dm o) (quad_sparse o) pen sv ds d2 q) /\
    (forall ds d1 d2, solve o srt (dense_dm o) (log_dense o) pen sv ds d1 q = solve o srt (dense_dm o) (log_dense o) pen sv ds d2 q) /\
    (forall ds d1 d2, solve o srt (sparse_dm o) (log_sparse o) pen sv ds d1 q = solve o srt (sparse_dm o) (log_sparse o) pen sv ds d2 q)) /\
  (forall P (pen : PenaltyMT F P) q,
    (forall ds d1 d2, solve_multi_task o srt (dense_dm o) (qmt_dense o) pen sv ds d1 q = solve_multi_task o srt (dense_dm o) (qmt_dense o) pen sv ds d2 q) /\
    (forall ds d1 d2, solve_multi_task o srt (sparse_dm o) (qmt_sparse o) pen sv ds d1 q = solve_multi_task o srt (sparse_dm o) (qmt_sparse o) pen sv ds d2 q)).
Proof. exact (reuse_single o srt sv). Qed.
Print Assumptions C84_datafits_can_be_reused.
(** outside the solver this is false: after [initialize] on one dataset, gradients of another dataset silently use the targets of the first *)
Theorem C84_stale_gradient_refuted : exists X y y' Xw d g, df_initialize (quad_dense ops64) (quadratic_new ops64) (Dataset X y) = Ret d /\
  df_gradient_j (quad_dense ops64) d (Dataset X y') Xw 0 = Ret g /\
  forall d', df_initialize (quad_dense ops64) d (Dataset X y') = Ret d' -> df_gradient_j (quad_dense ops64) d' (Dataset X y') Xw 0 <> Ret g.
Proof. exact stale_refuted. Qed.
Print Assumptions C84_stale_gradient_refuted.
(** without [initialize] the gradient panics for every feature but the first *)
Theorem C84_uninitialised (F : Type) (o : FOps F) X t Xw j :
  (exists c, mcol (f0 o) X (S j) = Ret c /\ length c = length Xw) -> df_gradient_j (quad_dense o) (quadratic_new o) (Dataset X t) Xw (S j) = Panic POob.
Proof. exact (new_oob o X t Xw j). Qed.
Print Assumptions C84_uninitialised.
(** and a coordinate update leaves everything as it is for the first feature and panics for every other one *)
Theorem C84_uninitialised_updates (F : Type) (o : FOps F) :
  (no_update o (dense_dm o) (quad_dense o) /\ no_update o (sparse_dm o) (quad_sparse o) /\ no_update o (dense_dm o) (log_dense o) /\ no_update o (sparse_dm o) (log_sparse o)) /\
  no_update_mt o (dense_dm o) (qmt_dense o) /\ no_update_mt o (sparse_dm o) (qmt_sparse o).
Proof. exact (new_updates o). Qed.
Print Assumptions C84_uninitialised_updates.
(** a datafit initialised on other targets is a different object; the fit itself is not trivial *)
Example C84_nonvacuous : stale_b = true /\ nonzero_run (solve ops64 srt64 (sparse_dm ops64) (quad_sparse ops64) (l1_penalty ops64) csolver (Dataset rC ry) (quadratic_new ops64) (L1 (f1 ops64))) /\
  (exists c, mcol (f0 ops64) rX 1 = Ret c /\ length c = 3).
Proof. exact (conj stale_ok (conj run_q (ex_intro _ _ (conj eq_refl eq_refl)))). Qed.

(** *** C85: without acceleration, relabelling the samples of a sparse design together with the targets returns the same model bit for bit *)
Theorem C85_sample_labels (F : Type) (o : FOps F) n p s cs X X' srt sv : relabels n s -> holds n p cs X -> holds n p (relabelled s cs) X' -> s_use_acceleration sv = false ->
  (forall y y' P (pen : Penalty F P) q, moved n s y y' ->
    (forall d d', solve o srt (sparse_dm o) (quad_sparse o) pen sv (Dataset X (T1 y)) d q = solve o srt (sparse_dm o) (quad_sparse o) pen sv (Dataset X' (T1 y')) d' q) /\
    (forall d d', solve o srt (sparse_dm o) (log_sparse o) pen sv (Dataset X (T1 y)) d q = solve o srt (sparse_dm o) (log_sparse o) pen sv (Dataset X' (T1 y')) d' q)) /\
  (forall nt rows rows' P (pen : PenaltyMT F P) q d d', moved n s rows rows' ->
    solve_multi_task o srt (sparse_dm o) (qmt_sparse o) pen sv (Dataset X (T2 (Mat n nt rows))) d q = solve_multi_task o srt (sparse_dm o) (qmt_sparse o) pen sv (Dataset X' (T2 (Mat n nt rows'))) d' q).
Proof.
  exact (fun RL HX HX' HA => conj (fun y y' P pen q HY => conj (fun d d' => layout_quad o n p s RL cs X X' HX HX' y y' HY pen srt sv d d' q (or_introl HA)) (fun d d' => layout_log o n p s RL cs X X' HX HX' y y' HY pen srt sv d d' q (or_introl HA)))
    (fun nt rows rows' P pen q d d' HY => layout_qmt o n p s RL cs X X' HX HX' (Mat n nt rows) (Mat n nt rows') (conj eq_refl (conj eq_refl eq_refl)) HY pen srt sv d d' q (or_introl HA))).
Qed.
Print Assumptions C85_sample_labels.
(** three samples put in another order *)
Example C85_nonvacuous : relabels 3 turn /\ turn 0 = 1 /\ holds 3 2 rcs rC /\ holds 3 2 (relabelled turn rcs) tC /\ s_use_acceleration csolver = false /\ moved 3 turn (map f64_of [3; -1; 4]%Z) ty /\
  nonzero_run (solve ops64 srt64 (sparse_dm ops64) (quad_sparse ops64) (l1_penalty ops64) csolver (Dataset rC (T1 (map f64_of [3; -1; 4]%Z))) (quadratic_new ops64) (L1 (f1 ops64))) /\
  nonzero_run (solve ops64 srt64 (sparse_dm ops64) (quad_sparse ops64) (l1_penalty ops64) csolver (Dataset tC (T1 ty)) (quadratic_new ops64) (L1 (f1 ops64))).
Proof. exact (conj turn_ok (conj eq_refl (conj rC_holds (conj tC_holds (conj eq_refl (conj ty_moved (conj run_q run_t))))))). Qed.

(** *** C86: only the sequence of stored entries of each column matters; what else lies in the arrays of a compressed design does not *)
Theorem C86_stored_layout (F : Type) (o : FOps F) n p cs X X' srt sv : holds n p cs X -> holds n p cs X' ->
  (forall y P (pen : Penalty F P) q, length y = n ->
    (forall d d', solve o srt (sparse_dm o) (quad_sparse o) pen sv (Dataset X (T1 y)) d q = solve o srt (sparse_dm o) (quad_sparse o) pen sv (Dataset X' (T1 y)) d' q) /\
    (forall d d', solve o srt (sparse_dm o) (log_sparse o) pen sv (Dataset X (T1 y)) d q = solve o srt (sparse_dm o) (log_sparse o) pen sv (Dataset X' (T1 y)) d' q)) /\
  (forall nt rows P (pen : PenaltyMT F P) q d d', length rows = n ->
    solve_multi_task o srt (sparse_dm o) (qmt_sparse o) pen sv (Dataset X (T2 (Mat n nt rows))) d q = solve_multi_task o srt (sparse_dm o) (qmt_sparse o) pen sv (Dataset X' (T2 (Mat n nt rows))) d' q).
Proof. exact (stored_layout o n p cs X X' srt sv). Qed.
Print Assumptions C86_stored_layout.
(** but the order of the entries inside a column does matter in double precision: one column of ones, listed in two orders, is dropped or selected *)
Theorem C86_entry_order_refuted : exists c c' t v w w', (forall k, nth_error (cdata c) k = nth_error (cdata c') k) /\ cindptr c = cindptr c' /\ cindices c = [0; 1; 2]%Z /\ cindices c' = [0; 2; 1]%Z /\
  length (cdata c) = 3 /\ (forall x, In x (cdata c) -> x = f64_of 1) /\
  lasso_fit_sparse ops64 srt64 v (Dataset c t) = Ret w /\ lasso_fit_sparse ops64 srt64 v (Dataset c' t) = Ret w' /\ w = [f64_of 0] /\ nonzero ops64 w' 0.
Proof. exact order_refuted. Qed.
Print Assumptions C86_entry_order_refuted.
(** meaningless entries before the first column and after the last, acceleration on *)
Example C86_nonvacuous : holds 3 2 rcs rC /\ holds 3 2 rcs jC /\ length (cdata rC) = 5 /\ length (cdata jC) = 7 /\ s_use_acceleration asolver = true /\
  nonzero_run (solve ops64 srt64 (sparse_dm ops64) (quad_sparse ops64) (l1_penalty ops64) asolver (Dataset jC (T1 (map f64_of [3; -1; 4]%Z))) (quadratic_new ops64) (L1 (f1 ops64))).
Proof. exact (conj rC_holds (conj jC_holds (conj eq_refl (conj eq_refl (conj eq_refl run_l))))). Qed.

(** *** C87: targets given as a vector and targets given as a matrix of one column are the same problem *)
Theorem C87_vector_or_column (F : Type) (o : FOps F) srt sv (y : list F) : let col := Mat (length y) 1 (map (fun v => [v]) y) in
  (forall P (pen : Penalty F P) q,
    (forall X d, solve o srt (dense_dm o) (quad_dense o) pen sv (Dataset X (T1 y)) d q = solve o srt (dense_dm o) (quad_dense o) pen sv (Dataset X (T2 col)) d q) /\
    (forall X d, solve o srt (sparse_dm o) (quad_sparse o) pen sv (Dataset X (T1 y)) d q = solve o srt (sparse_dm o) (quad_sparse o) pen sv (Dataset X (T2 col)) d q) /\
    (forall X d, solve o srt (dense_dm o) (log_dense o) pen sv (Dataset X (T1 y)) d q = solve o srt (dense_dm o) (log_dense o) pen sv (Dataset X (T2 col)) d q) /\
    (forall X d, solve o srt (sparse_dm o) (log_sparse o) pen sv (Dataset X (T1 y)) d q = solve o srt (sparse_dm o) (log_sparse o) pen sv (Dataset X (T2 col)) d q)) /\
  (forall P (pen : PenaltyMT F P) q,
    (forall X d, solve_multi_task o srt (dense_dm o) (qmt_dense o) pen sv (Dataset X (T1 y)) d q = solve_multi_task o srt (dense_dm o) (qmt_dense o) pen sv (Dataset X (T2 col)) d q) /\
    (forall X d, solve_multi_task o srt (sparse_dm o) (qmt_sparse o) pen sv (Dataset X (T1 y)) d q = solve_multi_task o srt (sparse_dm o) (qmt_sparse o) pen sv (Dataset X (T2 col)) d q)).
Proof. exact (vector_or_column o srt sv y). Qed.
Print Assumptions C87_vector_or_column.
(** a fit on a vector of targets that selects a feature *)
Example C87_nonvacuous : nonzero_run (solve ops64 srt64 (sparse_dm ops64) (quad_sparse ops64) (l1_penalty ops64) csolver (Dataset rC (T1 (map f64_of [3; -1; 4]%Z))) (quadratic_new ops64) (L1 (f1 ops64))).
Proof. exact run_q. Qed.
