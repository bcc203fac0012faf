(** Documented default values of the hyperparameters, and what the Python attributes mean. *)
From Coq Require Import List ZArith Bool Arith Reals.
From Verif Require Import Ops Arr MDatasets MHyper MEstimators MPython XR.

(** *** defaults ("Defaults to ... if not set") of all six parameter sets and of [Solver] *)
Definition common_defaults (tol : R) (tolerance : xr) (max_iterations max_epochs ws_start_size K : nat) (use_acceleration verbose : bool) : Prop :=
  tolerance = Fin tol /\ max_iterations = 50%nat /\ max_epochs = 1000%nat /\ ws_start_size = 10%nat /\ K = 5%nat /\ use_acceleration = true /\ verbose = true.
Definition has_defaults (pr : params xr) : Prop :=
  common_defaults (1 / 1000000) (p_tolerance pr) (p_max_iterations pr) (p_max_epochs pr) (p_ws_start_size pr) (p_K pr) (p_use_acceleration pr) (p_verbose pr).
Definition solver_has_defaults (s : solver xr) : Prop :=
  common_defaults (1 / 100000000) (s_tolerance s) (s_max_iterations s) (s_max_epochs s) (s_ws_start_size s) (s_K s) (s_use_acceleration s) (s_verbose s).
(** everything but [alpha], the second hyperparameter and [verbose] at its default *)
Definition otherwise_default (pr : params xr) : Prop :=
  common_defaults (1 / 1000000) (p_tolerance pr) (p_max_iterations pr) (p_max_epochs pr) (p_ws_start_size pr) (p_K pr) (p_use_acceleration pr) true.

(** *** Python numbers: Booleans are integers *)
Inductive int_value {F} : pyval F -> nat -> Prop :=
| iv_int (k : nat) : (Z.of_nat k < 2 ^ 64)%Z -> int_value (PyInt (Z.of_nat k)) k
| iv_bool (b : bool) : int_value (PyBool b) (if b then 1 else 0).
Inductive float_value {F} (o : FOps F) : pyval F -> F -> Prop :=
| fv_float x : float_value o (PyFloat x) x
| fv_int z : float_value o (PyInt z) (flit o z 1)
| fv_bool b : float_value o (PyBool b) (flit o (if b then 1 else 0) 1).
(** the native hyperparameters described by the attributes of [e].  [tol] must be a float which is
    not negative; [shape] is not read by the two Lasso classes *)
Definition describes {F} (o : FOps F) (dflt : params F) (has_shape : bool) (e : estimator F) (pr : params F) : Prop :=
  float_value o (e_alpha e) (p_alpha pr) /\ (if has_shape then float_value o (e_shape e) (p_shape pr) else p_shape pr = p_shape dflt) /\
  int_value (e_max_iter e) (p_max_iterations pr) /\ int_value (e_max_epochs e) (p_max_epochs pr) /\ int_value (e_p0 e) (p_ws_start_size pr) /\
  e_tol e = PyFloat (p_tolerance pr) /\ flt o (p_tolerance pr) (flit o 0 1) = false /\ int_value (e_K e) (p_K pr) /\
  p_use_acceleration pr = e_use_accel e /\ p_verbose pr = e_verbose e.

(** *** which attributes the Python classes take.  Counts are integers that are not negative, Booleans included *)
Definition count_value {F} (v : pyval F) : Prop := (exists z, v = PyInt z /\ (0 <= z)%Z) \/ exists b, v = PyBool b.
Definition nonneg_float {F} (o : FOps F) (v : pyval F) : Prop := exists x, v = PyFloat x /\ flt o x (flit o 0 1) = false.
Definition valid_settings {F} (o : FOps F) (e : estimator F) : Prop :=
  count_value (e_K e) /\ count_value (e_p0 e) /\ nonneg_float o (e_tol e) /\ count_value (e_max_iter e) /\ count_value (e_max_epochs e).
(** what the constructors test: they read [alpha] where the second hyperparameter is meant *)
Definition shape_is_float {F} (e : estimator F) : Prop := exists x, e_shape e = PyFloat x.
Definition refuses_unless {F} (new : estimator F -> pyres (estimator F)) (e : estimator F) (good : Prop) : Prop :=
  (good /\ new e = PyRet e) \/ (~ good /\ new e = PyRaise ValueErr).
