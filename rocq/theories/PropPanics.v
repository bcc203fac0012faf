(** Property theorems C23 (exact arithmetic), C36 (defaults), C49 and C50. *)
From Coq Require Import List ZArith Bool Arith Lia Reals.
From Verif Require Import Ops Arr MUtils MDatasets MDatafits MDatafitsMT MPenalties MBlockPenalties MCd MBcd MHyper MEstimators MPython XR RSum SpecPen SpecLin SpecData SpecDatafit SpecSolve SpecOpt SpecNull SpecParams PLaws PParams PPanics PDataEx POptEx PNullEx2 PPanicsEx PSortNanFit.
Import ListNotations.
Open Scope R_scope.

(** *** C23: with extrapolation and a working set of fewer than [K] coefficients, a fit either
    returns the null model at once or panics, according to the stopping criterion at zero *)
Theorem C23_panics_unless_zero_is_stationary srt (VS : valid_sort xops srt) n p X y l k s fit tol : (1 <= n)%nat -> single_fit srt n p X y l k s fit -> s_tolerance s = Fin tol ->
  s_use_acceleration s = true -> (Nat.min (s_ws_start_size s) p < s_K s)%nat -> (s_K s <= 10)%nat -> (s_K s < s_max_epochs s)%nat -> accepted fit -> forall m, (1 <= m)%nat ->
  (stationary tol (loss1 l n y) p X (pen1 k) (fun _ => 0) -> fit m = Ret (Ok (xv p (fun _ => 0)))) /\
  (~ stationary tol (loss1 l n y) p X (pen1 k) (fun _ => 0) -> fit m = Panic POob).
Proof. exact (fun Hn => small_single srt VS n p Hn X y l k s fit tol). Qed.
Print Assumptions C23_panics_unless_zero_is_stationary.
Theorem C23_panics_below_alpha_max srt (VS : valid_sort xops srt) n p X y k s fit tol am m : (1 <= n)%nat -> reported_alpha_max n p X y am -> single_fit srt n p X y Squared k s fit -> s_tolerance s = Fin tol -> 0 <= tol ->
  s_use_acceleration s = true -> (Nat.min (s_ws_start_size s) p < s_K s)%nat -> (s_K s <= 10)%nat -> (s_K s < s_max_epochs s)%nat -> accepted fit -> (1 <= m)%nat ->
  (am <= slope k + tol -> fit m = Ret (Ok (xv p (fun _ => 0)))) /\ (slope k + tol < am -> fit m = Panic POob).
Proof. exact (fun Hn => small_single_am srt VS n p Hn X y k s fit tol am m). Qed.
Print Assumptions C23_panics_below_alpha_max.
Theorem C23_panics_below_alpha_max_multitask srt (VS : valid_sort xops srt) n p T X Y k s fit tol am : (1 <= n)%nat -> multi_fit srt n p T X Y k s fit -> reported_alpha_max_mt n p T X Y am -> s_tolerance s = Fin tol -> 0 <= tol ->
  s_use_acceleration s = true -> (Nat.min (s_ws_start_size s) p * T < s_K s)%nat -> (s_K s <= 10)%nat -> (s_K s < s_max_epochs s)%nat -> accepted fit -> forall m, (1 <= m)%nat ->
  (zero_level k am <= slope_mt k + tol -> fit m = Ret (Ok (xm p T (fun _ _ => 0)))) /\ (slope_mt k + tol < zero_level k am -> fit m = Panic POob).
Proof. exact (fun Hn => small_multi srt VS n p Hn T X Y k s fit tol am). Qed.
Print Assumptions C23_panics_below_alpha_max_multitask.
(** the estimators with their default settings *)
Theorem C23_default_estimators srt (VS : valid_sort xops srt) n p X y t k pr am : (1 <= n)%nat -> otherwise_default pr -> carries k pr -> pen1_range k ->
  match k with McpPen _ g => 1 <= g | _ => True end -> single_target_of n y t -> (p < 5)%nat -> reported_alpha_max n p X y am ->
  (am <= slope k + 1/1000000 -> estimator_dense srt k pr (Dataset (xm n p X) t) = Ret (Ok (xv p (fun _ => 0)))) /\
  (slope k + 1/1000000 < am -> estimator_dense srt k pr (Dataset (xm n p X) t) = Panic POob).
Proof. exact (fun Hn => default_single srt VS n p Hn X y t k pr am). Qed.
Print Assumptions C23_default_estimators.
Theorem C23_default_estimators_multitask srt (VS : valid_sort xops srt) n p T X Y t k pr am : (1 <= n)%nat -> otherwise_default pr -> carries_mt k pr -> penT_range k ->
  multi_target_of n T Y t -> (p * T < 5)%nat -> (p <= 10)%nat -> reported_alpha_max_mt n p T X Y am ->
  (zero_level k am <= slope_mt k + 1/1000000 -> mt_estimator_dense srt k pr (Dataset (xm n p X) t) = Ret (Ok (xm p T (fun _ _ => 0)))) /\
  (slope_mt k + 1/1000000 < zero_level k am -> mt_estimator_dense srt k pr (Dataset (xm n p X) t) = Panic POob).
Proof. exact (fun Hn => default_multi srt VS n p Hn T X Y t k pr am). Qed.
Print Assumptions C23_default_estimators_multitask.
(** three features, alpha 1/10, all else default, largest correlation 2/3 *)
Example C23_panic_nonvacuous : single_fit (dsort xops) 3 3 (entry exE) oy Squared (LassoPen (1/10)) (settings (pan (1/10))) fit_pan /\ accepted fit_pan /\
  ~ stationary (1/1000000) (loss1 Squared 3 oy) 3 (entry exE) (pen1 (LassoPen (1/10))) (fun _ => 0) /\ reported_alpha_max 3 3 (entry exE) oy (2/3) /\ slope (LassoPen (1/10)) + 1/1000000 < 2/3 /\
  otherwise_default (pan (1/10)) /\ valid_sort xops (dsort xops).
Proof. exact (conj (proj1 pan_ex) (conj (proj1 (proj2 pan_ex)) (conj pan_not_stationary (conj am_ex (conj pan_slope (conj (proj1 (pan_default _)) xr_sort)))))). Qed.
Example C23_panic_multitask_nonvacuous : multi_fit (dsort xops) 1 1 1 oneX1 oneY1 (MtLassoPen (1/10)) (settings (pan (1/10))) fit_panT /\ accepted fit_panT /\
  slope_mt (MtLassoPen (1/10)) + 1/1000000 < zero_level (MtLassoPen (1/10)) (1/2) /\ (Nat.min (s_ws_start_size (settings (pan (1/10)))) 1 * 1 < s_K (settings (pan (1/10))))%nat.
Proof. exact panT_ex. Qed.
Example C23_multitask_alpha_max : reported_alpha_max_mt 1 1 1 oneX1 oneY1 (1/2).
Proof. exact am_mt_ex. Qed.

(** *** C36: the documented defaults hold, except for [l1_ratio] *)
Theorem C36_defaults :
  Forall (fun pr => has_defaults pr /\ p_alpha pr = Fin 1)
    [lasso_params_new xops; mt_lasso_params_new xops; mcp_params_new xops; block_mcp_params_new xops; elastic_net_params_new xops; mt_elastic_net_params_new xops] /\
  Forall (fun pr => p_shape pr = Fin 3) [mcp_params_new xops; block_mcp_params_new xops] /\ solver_has_defaults (solver_default xops).
Proof. exact defaults_hold. Qed.
Print Assumptions C36_defaults.
(** documented as 3; it is 1/2, and 3 is refused *)
Theorem C36_documented_l1_ratio_refuted : Forall (fun cp => p_shape (snd cp) = Fin (1/2) /\ fst cp (set_shape (Fin 3) (snd cp)) = Err (InvalidL1Ratio (Fin 3)))
  [(elastic_net_check_ref xops, elastic_net_params_new xops); (mt_elastic_net_check_ref xops, mt_elastic_net_params_new xops)].
Proof. exact l1_ratio_default. Qed.
Print Assumptions C36_documented_l1_ratio_refuted.

(** *** C49: a Python [fit] returns coefficients exactly when the native fit with the
    hyperparameters described by the attributes does, and then the same ones *)
Theorem C49_python_fit_is_native_fit F (o : FOps F) DM A dflt hs chk (fit : params F -> dataset DM F -> res A) e ds c :
  py_fit o dflt hs chk fit e ds = PyRet c <-> exists pr, describes o dflt hs e pr /\ fit_unchecked chk fit pr ds = Ret (Ok c).
Proof. exact (py_fit_native o dflt hs chk fit e ds c). Qed.
Print Assumptions C49_python_fit_is_native_fit.
Example C49_nonvacuous : exists pr c, describes xops (lasso_params_new xops) false pyE pr /\
  fit_unchecked (lasso_check_ref xops) (lasso_fit_dense xops (dsort xops)) pr (Dataset (xm 3 3 (fun _ _ => 0)) (T1 (xv 3 oy))) = Ret (Ok c).
Proof. exact py_null. Qed.

(** *** C50: the multi-task classes *)
Theorem C50_python_multitask_fit_is_native_fit F (o : FOps F) DM A rows dflt hs chk (fit : params F -> dataset DM F -> res A) e X t c :
  py_fit_mt o rows dflt hs chk fit e (Dataset X t) = PyRet c <->
  exists Y pr, t = T2 Y /\ rows X = mnr Y /\ describes o dflt hs e pr /\ fit_unchecked chk fit pr (Dataset X t) = Ret (Ok c).
Proof. exact (py_fit_mt_native o rows dflt hs chk fit e X t c). Qed.
Print Assumptions C50_python_multitask_fit_is_native_fit.
Theorem C50_python_multitask_bad_shapes F (o : FOps F) DM A rows dflt hs chk (fit : params F -> dataset DM F -> res A) e X t :
  (forall Y, t = T2 Y -> rows X <> mnr Y) -> py_fit_mt o rows dflt hs chk fit e (Dataset X t) = PyRaise ValueErr.
Proof. exact (py_fit_mt_shape o rows dflt hs chk fit e X t). Qed.
Print Assumptions C50_python_multitask_bad_shapes.
(** a matrix with three rows, a vector resp. two rows of targets *)
Example C50_nonvacuous : (forall Y, @T1 xr (xv 3 oy) = T2 Y -> mnr (xm 3 1 (fun _ _ => 1)) <> mnr Y) /\ (forall Y, @T2 xr (xm 2 1 (fun _ _ => 1)) = T2 Y -> mnr (xm 3 1 (fun _ _ => 1)) <> mnr Y).
Proof. exact bad_shapes. Qed.
Theorem C44_python_multitask_predict_raises F (o : FOps F) (W X : mat F) : (2 <= length (concat (mrows W)))%nat -> py_predict_mt o (Some W) X = PyRaise ValueErr.
Proof. exact (py_predict_mt_several o W X). Qed.
Print Assumptions C44_python_multitask_predict_raises.
(** when [predict] does return, and what it returns then: exactly one coefficient, not zero *)
Theorem C44_python_predict_returns F (o : FOps F) (c : list F) (X : mat F) (v : list F) :
  py_predict o (Some c) X = PyRet v <->
  exists x, c = [x] /\ feq o x (f0 o) = false /\ mnc X = 1%nat /\ v = map (fun row => ndot o row [x]) (mrows X).
Proof. exact (py_predict_iff o c X v). Qed.
Print Assumptions C44_python_predict_returns.
Theorem C44_python_predict_values (n : nat) (X : rmat) (x : R) : x <> 0%R ->
  py_predict xops (Some [Fin x]) (xm n 1 X) = PyRet (xv n (fun i => X i 0%nat * x)%R) /\
  py_predict_mt xops (Some (xm 1 1 (fun _ _ => x))) (xm n 1 X) = PyRet (xm n 1 (fun i _ => X i 0%nat * x)%R).
Proof. exact (fun H => conj (py_predict_value n X x H) (py_predict_mt_value n X x H)). Qed.
Print Assumptions C44_python_predict_values.
Example C44_predict_nonvacuous : (2 <> 0)%R /\ py_predict xops (Some [Fin 2]) (xm 3 1 (fun i _ => INR i)) = PyRet (xv 3 (fun i => INR i * 2)%R).
Proof. exact (conj two_ne0 (py_predict_value 3 (fun i _ => INR i) 2 two_ne0)). Qed.
Example C44_multitask_nonvacuous : (2 <= length (concat (mrows (xm 3 2 oY))))%nat.
Proof. cbn. lia. Qed.

(** *** exactly which arguments the Python constructors take (C43) *)
Theorem C43_python_constructors F (o : FOps F) (e : estimator F) :
  let alpha_ok := nonneg_float o (e_alpha e) in
  refuses_unless (py_lasso_new o) e alpha_ok /\ refuses_unless (py_mt_lasso_new o) e alpha_ok /\
  (forall new, In new [py_mcp_new o; py_block_mcp_new o] ->
     refuses_unless new e (alpha_ok /\ shape_is_float e /\ forall a, e_alpha e = PyFloat a -> flt o a (flit o 1 1) = false)) /\
  (forall new, In new [py_elastic_net_new o; py_mt_elastic_net_new o] ->
     refuses_unless new e (alpha_ok /\ shape_is_float e /\ forall a, e_alpha e = PyFloat a -> flt o (flit o 1 1) a = false)).
Proof. exact (py_constructors o e). Qed.
Print Assumptions C43_python_constructors.
(** *** exactly when [fit] raises [ValueError] (C49, C50); constructed objects never raise [TypeError] *)
Theorem C49_python_value_error F (o : FOps F) DM A dflt hs chk (fit : params F -> dataset DM F -> res A) e ds :
  py_fit o dflt hs chk fit e ds = PyRaise ValueErr <-> ~ valid_settings o e.
Proof. exact (py_fit_value_error o dflt hs chk fit e ds). Qed.
Print Assumptions C49_python_value_error.
Theorem C49_python_no_type_error F (o : FOps F) DM A dflt hs chk (fit : params F -> dataset DM F -> res A) e ds :
  nonneg_float o (e_alpha e) -> (hs = true -> shape_is_float e) -> py_fit o dflt hs chk fit e ds <> PyRaise TypeErr.
Proof. exact (py_never_type_error o dflt hs chk fit e ds). Qed.
Print Assumptions C49_python_no_type_error.
Theorem C50_python_multitask_value_error F (o : FOps F) DM A rows dflt hs chk (fit : params F -> dataset DM F -> res A) e X t :
  py_fit_mt o rows dflt hs chk fit e (Dataset X t) = PyRaise ValueErr <-> ~ valid_settings o e \/ forall Y, t = T2 Y -> rows X <> mnr Y.
Proof. exact (py_fit_mt_value_error o rows dflt hs chk fit e X t). Qed.
Print Assumptions C50_python_multitask_value_error.
(** the default attributes are valid; a float for [K], an integer for [tol] and a negative [p0] are not; [K=True] is *)
Example C49_settings_nonvacuous : let e K p0 tol := Estimator (PyFloat (Fin 1)) (PyFloat (Fin 1)) (PyInt 50) (PyInt 1000) tol (PyInt p0) true K true in
  valid_settings xops (e (PyInt 5) 10%Z (PyFloat (Fin 0))) /\ valid_settings xops (e (PyBool true) 10%Z (PyFloat (Fin 0))) /\
  ~ valid_settings xops (e (PyFloat (Fin 5)) 10%Z (PyFloat (Fin 0))) /\ ~ valid_settings xops (e (PyInt 5) (-1)%Z (PyFloat (Fin 0))) /\ ~ valid_settings xops (e (PyInt 5) 10%Z (PyInt 0)) /\
  refuses_unless (py_lasso_new xops) (e (PyInt 5) 10%Z (PyFloat (Fin 0))) (nonneg_float xops (PyFloat (Fin 1))).
Proof. exact settings_examples. Qed.
