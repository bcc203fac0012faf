(** Property theorems C33-C37, C41, C43, C44, C47: hyperparameters, estimators as solver runs,
    targets, Python layer.  Valid for any float arithmetic [o] unless stated otherwise. *)
From Coq Require Import List ZArith Bool Arith Reals Lra Lia.
From Flocq Require Import Core BinarySingleNaN.
From Verif Require Import Ops Arr MUtils MDatasets MDatafits MDatafitsMT MPenalties MBlockPenalties
  MCd MBcd MHyper MEstimators MPython XR IEEE SpecHyper PHyper PHyperEx.
Import ListNotations.
Local Open Scope nat_scope.

(** *** C33 *)
Theorem C33_validation_reports_first_violation (F : Type) (o : FOps F) (p : params F) :
  first_violation (lasso_rules o p) (error_of (lasso_check_ref o p)) /\
  first_violation (lasso_rules o p) (error_of (mt_lasso_check_ref o p)) /\
  first_violation (mcp_rules o p) (error_of (mcp_check_ref o p)) /\
  first_violation (lasso_rules o p) (error_of (block_mcp_check_ref o p)) /\
  first_violation (enet_rules o p) (error_of (elastic_net_check_ref o p)) /\
  first_violation (enet_rules o p) (error_of (mt_elastic_net_check_ref o p)).
Proof. exact (all_checks_spec o p). Qed.
Print Assumptions C33_validation_reports_first_violation.
Theorem C33_validation_returns_parameters_unchanged (F : Type) (o : FOps F) (p : params F) :
  Forall (fun chk => (forall q, chk p = Ok q -> q = p) /\ check chk p = chk p)
    [lasso_check_ref o; mt_lasso_check_ref o; mcp_check_ref o; block_mcp_check_ref o;
     elastic_net_check_ref o; mt_elastic_net_check_ref o].
Proof. exact (all_checks_unchanged o p). Qed.
Print Assumptions C33_validation_returns_parameters_unchanged.
(** on real numbers: acceptance is the documented range *)
Theorem C33_accepted_ranges a s mi me ws t K ua vb :
  let p := Params (Fin a) (Fin s) mi me ws (Fin t) K ua vb in
  (error_of (lasso_check_ref xops p) = None <-> (0 <= a /\ 0 <= t)%R /\ (1 <= K /\ 1 <= ws)%nat) /\
  (error_of (mcp_check_ref xops p) = None <-> (0 <= a /\ 1 <= s /\ 0 <= t)%R /\ (1 <= K /\ 1 <= ws)%nat) /\
  (error_of (elastic_net_check_ref xops p) = None
     <-> (0 <= a /\ 0 <= s <= 1 /\ 0 <= t)%R /\ (1 <= K /\ 1 <= ws)%nat).
Proof. exact (xr_accept_all a s mi me ws t K ua vb). Qed.
Print Assumptions C33_accepted_ranges.
Example C33_nonvacuous :
  error_of (mcp_check_ref xops (Params (Fin 1) (Fin (1/2)%R) 1 1 0 (Fin 0) 1 true true))
  = Some (InvalidGamma (Fin (1/2)%R)).
Proof. exact ex_c33. Qed.

(** *** C34: IEEE floats of any precision *)
Theorem C34_nan_hyperparameters_accepted prec emax (Hp : Prec_gt_0 prec) (Hm : Prec_lt_emax prec emax)
    (m : libm prec emax) mi me ws K ua vb :
  (1 <= K)%nat -> (1 <= ws)%nat ->
  let io := ieee_ops prec emax Hp Hm m in
  let p := Params (B754_nan : binary_float prec emax) B754_nan mi me ws B754_nan K ua vb in
  lasso_check_ref io p = Ok p /\ mt_lasso_check_ref io p = Ok p /\ mcp_check_ref io p = Ok p /\
  block_mcp_check_ref io p = Ok p /\ elastic_net_check_ref io p = Ok p /\
  mt_elastic_net_check_ref io p = Ok p.
Proof. exact (nan_accepted prec emax Hp Hm m mi me ws K ua vb). Qed.
Print Assumptions C34_nan_hyperparameters_accepted.
Example C34_nonvacuous : (1 <= 5)%nat /\ (1 <= 10)%nat.
Proof. lia. Qed.
Theorem C34_negative_zero_rejected prec emax (Hp : Prec_gt_0 prec) (Hm : Prec_lt_emax prec emax)
    (m : libm prec emax) s mi me ws t K ua vb :
  let io := ieee_ops prec emax Hp Hm m in
  let p := Params (B754_zero true : binary_float prec emax) s mi me ws t K ua vb in
  let e := Err (InvalidRegularization (B754_zero true)) in
  lasso_check_ref io p = e /\ mt_lasso_check_ref io p = e /\ mcp_check_ref io p = e /\
  block_mcp_check_ref io p = e /\ elastic_net_check_ref io p = e /\ mt_elastic_net_check_ref io p = e.
Proof. exact (negzero_rejected prec emax Hp Hm m s mi me ws t K ua vb). Qed.
Print Assumptions C34_negative_zero_rejected.

(** *** C35 *)
Theorem C35_block_mcp_accepts_any_gamma (F : Type) (o : FOps F) (p : params F) (g : F) :
  error_of (block_mcp_check_ref o (set_shape g p)) = error_of (block_mcp_check_ref o p).
Proof. exact (block_mcp_any_gamma o p g). Qed.
Print Assumptions C35_block_mcp_accepts_any_gamma.
Theorem C35_single_task_mcp_rejects_small_gamma (F : Type) (o : FOps F) (p : params F) (g : F) :
  flt o g (f1 o) = true -> error_of (mcp_check_ref o (set_shape g p)) <> None.
Proof. exact (mcp_rejects_gamma o p g). Qed.
Print Assumptions C35_single_task_mcp_rejects_small_gamma.
Example C35_nonvacuous : flt xops (Fin (-3)) (f1 xops) = true /\
  error_of (block_mcp_check_ref xops (set_shape (Fin (-3)) (block_mcp_params_new xops))) = None.
Proof. exact ex_c35. Qed.

(** *** C36: after any sequence of setter calls every field holds the last value given to it,
    or its previous value if its setter was not called *)
Theorem C36_setters_last_call_wins (F : Type) (l : list (setter F)) (p : params F) :
  p_alpha (calls l p) = last_call (fun c => match c with SAlpha v => Some v | _ => None end) l (p_alpha p) /\
  p_shape (calls l p) = last_call (fun c => match c with SShape v => Some v | _ => None end) l (p_shape p) /\
  p_max_iterations (calls l p) = last_call (fun c => match c with SMaxIter v => Some v | _ => None end) l (p_max_iterations p) /\
  p_max_epochs (calls l p) = last_call (fun c => match c with SMaxEpochs v => Some v | _ => None end) l (p_max_epochs p) /\
  p_ws_start_size (calls l p) = last_call (fun c => match c with SWs v => Some v | _ => None end) l (p_ws_start_size p) /\
  p_tolerance (calls l p) = last_call (fun c => match c with STol v => Some v | _ => None end) l (p_tolerance p) /\
  p_K (calls l p) = last_call (fun c => match c with SK v => Some v | _ => None end) l (p_K p) /\
  p_use_acceleration (calls l p) = last_call (fun c => match c with SAccel v => Some v | _ => None end) l (p_use_acceleration p) /\
  p_verbose (calls l p) = last_call (fun c => match c with SVerbose v => Some v | _ => None end) l (p_verbose p).
Proof. exact (calls_spec l p). Qed.
Print Assumptions C36_setters_last_call_wins.
Theorem C36_solver_setters_last_call_wins (F : Type) (l : list (setter F)) (s : solver F) :
  s_max_iterations (solver_calls l s) = last_call (fun c => match c with SMaxIter v => Some v | _ => None end) l (s_max_iterations s) /\
  s_max_epochs (solver_calls l s) = last_call (fun c => match c with SMaxEpochs v => Some v | _ => None end) l (s_max_epochs s) /\
  s_ws_start_size (solver_calls l s) = last_call (fun c => match c with SWs v => Some v | _ => None end) l (s_ws_start_size s) /\
  s_tolerance (solver_calls l s) = last_call (fun c => match c with STol v => Some v | _ => None end) l (s_tolerance s) /\
  s_K (solver_calls l s) = last_call (fun c => match c with SK v => Some v | _ => None end) l (s_K s) /\
  s_use_acceleration (solver_calls l s) = last_call (fun c => match c with SAccel v => Some v | _ => None end) l (s_use_acceleration s) /\
  s_verbose (solver_calls l s) = last_call (fun c => match c with SVerbose v => Some v | _ => None end) l (s_verbose s).
Proof. exact (solver_calls_spec l s). Qed.
Print Assumptions C36_solver_setters_last_call_wins.
Example C36_nonvacuous :
  p_K (calls [SK 3; SAlpha 7; SK 4; SVerbose false] (Params 1 0 50 1000 10 1 5 true true)) = 4 /\
  p_max_iterations (calls [SK 3; SAlpha 7] (Params 1 0 50 1000 10 1 5 true true)) = 50.
Proof. split; reflexivity. Qed.

(** *** C37.  [run_as o check run p] is: the validation error of [p] if there is one (whatever the
    data), otherwise the run of a solver whose seven parameters were set from [p] (the solver's
    own [verbose] is left at its default). *)
Theorem C37_single_task_estimators_are_solver_runs (F : Type) (o : FOps F) (srt : list F -> list nat) p :
  (forall ds, fit_unchecked (lasso_check_ref o) (lasso_fit_dense o srt) p ds
    = run_as o (lasso_check_ref o) (fun s => solve o srt (dense_dm o) (quad_dense o) (l1_penalty o) s ds
        (df_new (quad_dense o)) (L1 (p_alpha p))) p) /\
  (forall ds, fit_unchecked (lasso_check_ref o) (lasso_fit_sparse o srt) p ds
    = run_as o (lasso_check_ref o) (fun s => solve o srt (sparse_dm o) (quad_sparse o) (l1_penalty o) s ds
        (df_new (quad_sparse o)) (L1 (p_alpha p))) p) /\
  (forall ds, fit_unchecked (mcp_check_ref o) (mcp_fit_dense o srt) p ds
    = run_as o (mcp_check_ref o) (fun s => solve o srt (dense_dm o) (quad_dense o) (mcp_penalty o) s ds
        (df_new (quad_dense o)) (MCP (p_alpha p) (p_shape p))) p) /\
  (forall ds, fit_unchecked (mcp_check_ref o) (mcp_fit_sparse o srt) p ds
    = run_as o (mcp_check_ref o) (fun s => solve o srt (sparse_dm o) (quad_sparse o) (mcp_penalty o) s ds
        (df_new (quad_sparse o)) (MCP (p_alpha p) (p_shape p))) p) /\
  (forall ds, fit_unchecked (elastic_net_check_ref o) (elastic_net_fit_dense o srt) p ds
    = run_as o (elastic_net_check_ref o) (fun s => solve o srt (dense_dm o) (quad_dense o) (l1l2_penalty o) s ds
        (df_new (quad_dense o)) (L1PlusL2 (p_alpha p) (p_shape p))) p) /\
  (forall ds, fit_unchecked (elastic_net_check_ref o) (elastic_net_fit_sparse o srt) p ds
    = run_as o (elastic_net_check_ref o) (fun s => solve o srt (sparse_dm o) (quad_sparse o) (l1l2_penalty o) s ds
        (df_new (quad_sparse o)) (L1PlusL2 (p_alpha p) (p_shape p))) p).
Proof. exact (est_single o srt p). Qed.
Print Assumptions C37_single_task_estimators_are_solver_runs.
Theorem C37_multi_task_estimators_are_solver_runs (F : Type) (o : FOps F) (srt : list F -> list nat) p :
  (forall ds, fit_unchecked (mt_lasso_check_ref o) (mt_lasso_fit_dense o srt) p ds
    = run_as o (mt_lasso_check_ref o) (fun s => solve_multi_task o srt (dense_dm o) (qmt_dense o) (l21_penalty o) s ds
        (dfm_new (qmt_dense o)) (L21 (p_alpha p))) p) /\
  (forall ds, fit_unchecked (mt_lasso_check_ref o) (mt_lasso_fit_sparse o srt) p ds
    = run_as o (mt_lasso_check_ref o) (fun s => solve_multi_task o srt (sparse_dm o) (qmt_sparse o) (l21_penalty o) s ds
        (dfm_new (qmt_sparse o)) (L21 (p_alpha p))) p) /\
  (forall ds, fit_unchecked (block_mcp_check_ref o) (block_mcp_fit_dense o srt) p ds
    = run_as o (block_mcp_check_ref o) (fun s => solve_multi_task o srt (dense_dm o) (qmt_dense o) (bmcp_penalty o) s ds
        (dfm_new (qmt_dense o)) (BlockMCP (p_alpha p) (p_shape p))) p) /\
  (forall ds, fit_unchecked (block_mcp_check_ref o) (block_mcp_fit_sparse o srt) p ds
    = run_as o (block_mcp_check_ref o) (fun s => solve_multi_task o srt (sparse_dm o) (qmt_sparse o) (bmcp_penalty o) s ds
        (dfm_new (qmt_sparse o)) (BlockMCP (p_alpha p) (p_shape p))) p) /\
  (forall ds, fit_unchecked (mt_elastic_net_check_ref o) (mt_elastic_net_fit_dense o srt) p ds
    = run_as o (mt_elastic_net_check_ref o) (fun s => solve_multi_task o srt (dense_dm o) (qmt_dense o) (bl1l2_penalty o) s ds
        (dfm_new (qmt_dense o)) (BlockL1PlusL2 (p_alpha p) (p_shape p))) p) /\
  (forall ds, fit_unchecked (mt_elastic_net_check_ref o) (mt_elastic_net_fit_sparse o srt) p ds
    = run_as o (mt_elastic_net_check_ref o) (fun s => solve_multi_task o srt (sparse_dm o) (qmt_sparse o) (bl1l2_penalty o) s ds
        (dfm_new (qmt_sparse o)) (BlockL1PlusL2 (p_alpha p) (p_shape p))) p).
Proof. exact (est_multi o srt p). Qed.
Print Assumptions C37_multi_task_estimators_are_solver_runs.
(** the coefficients do not depend on [verbose] (one conjunct per estimator) *)
Theorem C37_verbose_has_no_influence (F : Type) (o : FOps F) (srt : list F -> list nat) (p : params F) (b : bool) :
  (forall ds, fit_unchecked (lasso_check_ref o) (lasso_fit_dense o srt) (set_verbose b p) ds
            = fit_unchecked (lasso_check_ref o) (lasso_fit_dense o srt) p ds) /\
  (forall ds, fit_unchecked (mcp_check_ref o) (mcp_fit_sparse o srt) (set_verbose b p) ds
            = fit_unchecked (mcp_check_ref o) (mcp_fit_sparse o srt) p ds) /\
  (forall ds, fit_unchecked (elastic_net_check_ref o) (elastic_net_fit_dense o srt) (set_verbose b p) ds
            = fit_unchecked (elastic_net_check_ref o) (elastic_net_fit_dense o srt) p ds) /\
  (forall ds, fit_unchecked (mt_lasso_check_ref o) (mt_lasso_fit_dense o srt) (set_verbose b p) ds
            = fit_unchecked (mt_lasso_check_ref o) (mt_lasso_fit_dense o srt) p ds) /\
  (forall ds, fit_unchecked (block_mcp_check_ref o) (block_mcp_fit_sparse o srt) (set_verbose b p) ds
            = fit_unchecked (block_mcp_check_ref o) (block_mcp_fit_sparse o srt) p ds) /\
  (forall ds, fit_unchecked (mt_elastic_net_check_ref o) (mt_elastic_net_fit_dense o srt) (set_verbose b p) ds
            = fit_unchecked (mt_elastic_net_check_ref o) (mt_elastic_net_fit_dense o srt) p ds).
Proof. exact (est_verbose o srt p b). Qed.
Print Assumptions C37_verbose_has_no_influence.

(** *** C41 *)
Theorem C41_single_target_view (F : Type) (d : F) (t : targets F) :
  match t with T1 _ => True | T2 Y => mwf Y end ->
  match n_tasks t with
  | 1%nat => exists y, try_single_target d t = Ret (Ok y) /\ length y = n_samples t /\
               forall i, (i < n_samples t)%nat -> mget (as_multi_tasks t) i 0 = Ret (nth i y d)
  | 0%nat => try_single_target d t = Panic POob
  | _ => try_single_target d t = Ret (Err NonCastableSingleTargets)
  end.
Proof. exact (single_target_spec d t). Qed.
Print Assumptions C41_single_target_view.
Example C41_nonvacuous :
  mwf (Mat 2 1 [[4]; [7]]) /\ try_single_target 0 (T2 (Mat 2 1 [[4]; [7]])) = Ret (Ok [4; 7]) /\
  mwf (Mat 1 2 [[4; 7]]) /\ try_single_target 0 (T2 (Mat 1 2 [[4; 7]])) = Ret (Err NonCastableSingleTargets).
Proof. repeat split; repeat constructor. Qed.

(** *** C43 *)
Theorem C43_python_mcp_rejects_alpha_below_one (F : Type) (o : FOps F) (e : estimator F) (a : F) :
  e_alpha e = PyFloat a -> flt o a (flit o 1 1) = true ->
  py_mcp_new o e = PyRaise ValueErr /\ py_block_mcp_new o e = PyRaise ValueErr.
Proof. exact (py_mcp_rejects o e a). Qed.
Print Assumptions C43_python_mcp_rejects_alpha_below_one.
Theorem C43_python_mcp_accepts_any_gamma (F : Type) (o : FOps F) (e : estimator F) (a g : F) :
  e_alpha e = PyFloat a -> e_shape e = PyFloat g ->
  flt o a (flit o 0 1) = false -> flt o a (flit o 1 1) = false ->
  py_mcp_new o e = PyRet e /\ py_block_mcp_new o e = PyRet e.
Proof. exact (py_mcp_ignores_gamma o e a g). Qed.
Print Assumptions C43_python_mcp_accepts_any_gamma.
Theorem C43_python_elastic_net_rejects_alpha_above_one (F : Type) (o : FOps F) (e : estimator F) (a : F) :
  e_alpha e = PyFloat a -> flt o (flit o 1 1) a = true ->
  py_elastic_net_new o e = PyRaise ValueErr /\ py_mt_elastic_net_new o e = PyRaise ValueErr.
Proof. exact (py_enet_rejects o e a). Qed.
Print Assumptions C43_python_elastic_net_rejects_alpha_above_one.
Theorem C43_python_elastic_net_accepts_any_ratio (F : Type) (o : FOps F) (e : estimator F) (a g : F) :
  e_alpha e = PyFloat a -> e_shape e = PyFloat g ->
  flt o a (flit o 0 1) = false -> flt o (flit o 1 1) a = false ->
  py_elastic_net_new o e = PyRet e /\ py_mt_elastic_net_new o e = PyRet e.
Proof. exact (py_enet_ignores_ratio o e a g). Qed.
Print Assumptions C43_python_elastic_net_accepts_any_ratio.
(** reals: alpha = 1/2, gamma = 3 (valid) is refused; alpha = 2, gamma = -1 (invalid) is accepted;
    alpha = 1/2, l1_ratio = 7 (invalid) is accepted *)
Example C43_nonvacuous :
  let e a g := Estimator (PyFloat (Fin a)) (PyFloat (Fin g)) (PyInt 50) (PyInt 1000)
                 (PyFloat (Fin 0)) (PyInt 10) true (PyInt 5) true in
  py_mcp_new xops (e (1/2)%R 3%R) = PyRaise ValueErr /\ py_mcp_new xops (e 2%R (-1)%R) = PyRet (e 2%R (-1)%R) /\
  py_elastic_net_new xops (e (1/2)%R 7%R) = PyRet (e (1/2)%R 7%R) /\
  py_elastic_net_new xops (e 2%R (1/2)%R) = PyRaise ValueErr.
Proof. exact ex_c43. Qed.

(** *** C44 *)
Theorem C44_python_predict_with_several_coefficients_raises (F : Type) (o : FOps F) (c : list F) (X : mat F) :
  (2 <= length c)%nat -> py_predict o (Some c) X = PyRaise ValueErr.
Proof. exact (py_predict_several o c X). Qed.
Print Assumptions C44_python_predict_with_several_coefficients_raises.
Theorem C44_python_predict_zero_coefficient_claims_unfitted (F : Type) (o : FOps F) (x : F) (X : mat F) :
  feq o x (f0 o) = true -> py_predict o (Some [x]) X = PyRaise NotFitted /\ py_predict o None X = PyRaise NotFitted.
Proof. exact (py_predict_zero o x X). Qed.
Print Assumptions C44_python_predict_zero_coefficient_claims_unfitted.
Example C44_nonvacuous : feq xops (Fin 0) (f0 xops) = true /\ (2 <= length [Fin 1; Fin 2])%nat.
Proof. exact ex_c44. Qed.

(** *** C47: [K = 0] or [p0 = 0] *)
Theorem C47_python_zero_K_or_p0_panics (F : Type) (o : FOps F) e aa tol zi ze sh K p0 :
  e_alpha e = PyFloat aa -> e_tol e = PyFloat tol -> flt o tol (flit o 0 1) = false ->
  e_max_iter e = PyInt zi -> e_max_epochs e = PyInt ze -> (0 <= zi < 2 ^ 64)%Z -> (0 <= ze < 2 ^ 64)%Z ->
  e_shape e = PyFloat sh ->
  e_K e = PyInt K -> e_p0 e = PyInt p0 -> (0 <= K < 2 ^ 64)%Z -> (0 <= p0 < 2 ^ 64)%Z -> (K = 0 \/ p0 = 0)%Z ->
  forall srt,
  (forall ds, py_fit o (lasso_params_new o) false (lasso_check_ref o) (lasso_fit_dense o srt) e ds
     = PyRaise (RustPanic PUnwrap)) /\
  (forall ds, py_fit o (lasso_params_new o) false (lasso_check_ref o) (lasso_fit_sparse o srt) e ds
     = PyRaise (RustPanic PUnwrap)) /\
  (forall ds, py_fit o (mcp_params_new o) true (mcp_check_ref o) (mcp_fit_dense o srt) e ds
     = PyRaise (RustPanic PUnwrap)) /\
  (forall ds, py_fit o (elastic_net_params_new o) true (elastic_net_check_ref o) (elastic_net_fit_dense o srt) e ds
     = PyRaise (RustPanic PUnwrap)) /\
  (forall X Y, mnr X = mnr Y -> py_fit_mt o mnr (mt_lasso_params_new o) false (mt_lasso_check_ref o) (mt_lasso_fit_dense o srt) e (Dataset X (T2 Y))
     = PyRaise (RustPanic PUnwrap)) /\
  (forall X Y, mnr X = mnr Y -> py_fit_mt o mnr (block_mcp_params_new o) true (block_mcp_check_ref o) (block_mcp_fit_dense o srt) e (Dataset X (T2 Y))
     = PyRaise (RustPanic PUnwrap)) /\
  (forall X Y, mnr X = mnr Y -> py_fit_mt o mnr (mt_elastic_net_params_new o) true (mt_elastic_net_check_ref o) (mt_elastic_net_fit_dense o srt) e (Dataset X (T2 Y))
     = PyRaise (RustPanic PUnwrap)).
Proof. exact (py_zero_panics o e aa tol zi ze sh K p0). Qed.
Print Assumptions C47_python_zero_K_or_p0_panics.
Example C47_nonvacuous :
  let e := Estimator (PyFloat (Fin 1)) (PyFloat (Fin 1)) (PyInt 50) (PyInt 1000)
                 (PyFloat (Fin 0)) (PyInt 10) true (PyInt 0) true in
  py_lasso_new xops e = PyRet e /\ flt xops (Fin 0) (flit xops 0 1) = false.
Proof. exact ex_c47. Qed.
