(** Model of the Python front end: [python/sparseglm/estimators.py] and the PyO3 wrappers
    [python/src/*.rs].

    Not modelled: scikit-learn's [check_array] / [_validate_data] (the arrays which reach the
    wrapper are given), numpy memory, sparse [predict].  [use_accel] and [verbose] are booleans. *)
From Coq Require Import List ZArith Bool Arith.
From Verif Require Import Ops Arr MDatasets MHyper MEstimators.
Import ListNotations.

(** Python values as far as the validation distinguishes them.  [numpy.float64] is a subclass of
    [float]; [bool] is a subclass of [int]. *)
Inductive pyval (F : Type) : Type :=
| PyInt (z : Z)
| PyFloat (x : F)
| PyBool (b : bool)
| PyOther.
Arguments PyInt {F}. Arguments PyFloat {F}. Arguments PyBool {F}. Arguments PyOther {F}.

(** Python exceptions *)
Inductive pyexc : Type :=
| ValueErr              (* ValueError *)
| TypeErr               (* TypeError: an argument of the wrapper is not a number of the right type *)
| OverflowErr           (* int out of the range of usize *)
| IndexErr              (* IndexError *)
| NotFitted             (* Exception("Estimator must be fitted before inference.") *)
| RustPanic (p : panic) (* pyo3_runtime.PanicException *).

Inductive pyres (A : Type) : Type := PyRet (a : A) | PyRaise (e : pyexc).
Arguments PyRet {A}. Arguments PyRaise {A}.

Definition pybind {A B} (m : pyres A) (k : A -> pyres B) : pyres B :=
  match m with PyRet a => k a | PyRaise e => PyRaise e end.

(** The attributes of an estimator object (estimators.py 22-32).  [e_shape] is [gamma] or
    [l1_ratio], [PyOther] for the two Lasso classes. *)
Record estimator (F : Type) : Type := Estimator {
  e_alpha : pyval F;
  e_shape : pyval F;
  e_max_iter : pyval F;
  e_max_epochs : pyval F;
  e_tol : pyval F;
  e_p0 : pyval F;
  e_use_accel : bool;
  e_K : pyval F;
  e_verbose : bool
}.
Arguments Estimator {F}. Arguments e_alpha {F}. Arguments e_shape {F}. Arguments e_max_iter {F}.
Arguments e_max_epochs {F}. Arguments e_tol {F}. Arguments e_p0 {F}. Arguments e_use_accel {F}.
Arguments e_K {F}. Arguments e_verbose {F}.

Section Py.
Context {F : Type} (o : FOps F).

(** [isinstance(v, float)] *)
Definition is_pyfloat (v : pyval F) : bool := match v with PyFloat _ => true | _ => false end.
(** [isinstance(v, int)] *)
Definition is_pyint (v : pyval F) : bool :=
  match v with PyInt _ | PyBool _ => true | _ => false end.
(** [v < n] for a small integer literal; only evaluated on numbers *)
Definition py_lt_int (v : pyval F) (n : Z) : bool :=
  match v with
  | PyInt z => (z <? n)%Z
  | PyFloat x => flt o x (flit o n 1)
  | PyBool b => ((if b then 1 else 0) <? n)%Z
  | PyOther => false
  end.
(** [v > n] *)
Definition py_gt_int (v : pyval F) (n : Z) : bool :=
  match v with
  | PyInt z => (n <? z)%Z
  | PyFloat x => flt o (flit o n 1) x
  | PyBool b => (n <? (if b then 1 else 0))%Z
  | PyOther => false
  end.

(** *** Constructors *)

(** Lasso 93-98; MultiTaskLasso 170-178.  [base] holds the attributes set by
    [Estimator.__init__]; its [e_alpha] is the argument. *)
Definition py_lasso_new (base : estimator F) : pyres (estimator F) :=
  if negb (is_pyfloat (e_alpha base)) || py_lt_int (e_alpha base) 0 then PyRaise ValueErr
  else PyRet base.
Definition py_mt_lasso_new := py_lasso_new.

(** MCPRegressor 270-277; BlockMCPRegressor 359-366.  The second test reads [alpha], as the
    source does. *)
Definition py_mcp_new (base : estimator F) : pyres (estimator F) :=
  if negb (is_pyfloat (e_alpha base)) || py_lt_int (e_alpha base) 0 then PyRaise ValueErr
  else if negb (is_pyfloat (e_shape base)) || py_lt_int (e_alpha base) 1 then PyRaise ValueErr
  else PyRet base.
Definition py_block_mcp_new := py_mcp_new.

(** ElasticNet 457-466; MultiTaskElasticNet 546-554.  Again [alpha] is read. *)
Definition py_elastic_net_new (base : estimator F) : pyres (estimator F) :=
  if negb (is_pyfloat (e_alpha base)) || py_lt_int (e_alpha base) 0 then PyRaise ValueErr
  else if negb (is_pyfloat (e_shape base)) || py_lt_int (e_alpha base) 0
          || py_gt_int (e_alpha base) 1 then PyRaise ValueErr
  else PyRet base.
Definition py_mt_elastic_net_new := py_elastic_net_new.

(** *** [_validate_params], 34-43 *)
Definition check_types (is_type : pyval F -> bool) (v : pyval F) : pyres unit :=
  if negb (is_type v) || py_lt_int v 0 then PyRaise ValueErr else PyRet tt.

Definition validate_params (e : estimator F) : pyres unit :=
  pybind (check_types is_pyint (e_K e)) (fun _ =>
  pybind (check_types is_pyint (e_p0 e)) (fun _ =>
  pybind (check_types is_pyfloat (e_tol e)) (fun _ =>
  pybind (check_types is_pyint (e_max_iter e)) (fun _ =>
  check_types is_pyint (e_max_epochs e))))).

(** *** PyO3 argument conversion: [usize] and [f64] parameters of [#\[new\]] *)
Definition usize_bound : Z := 2 ^ 64.
Definition to_usize (v : pyval F) : pyres nat :=
  match v with
  | PyInt z => if (z <? 0)%Z || (usize_bound <=? z)%Z then PyRaise OverflowErr else PyRet (Z.to_nat z)
  | PyBool b => PyRet (if b then 1%nat else 0%nat)
  | _ => PyRaise TypeErr
  end.
Definition to_f64 (v : pyval F) : pyres F :=
  match v with
  | PyFloat x => PyRet x
  | PyInt z => PyRet (flit o z 1)
  | PyBool b => PyRet (flit o (if b then 1 else 0) 1)
  | PyOther => PyRaise TypeErr
  end.

(** wrappers' [new], e.g. python/src/lasso.rs 17-39, mcp.rs 17-41: all setters are called on the
    default parameters *)
Definition wrapper_new (dflt : params F) (has_shape : bool) (e : estimator F) : pyres (params F) :=
  pybind (to_f64 (e_alpha e)) (fun alpha =>
  pybind (if has_shape then to_f64 (e_shape e) else PyRet (p_shape dflt)) (fun shape =>
  pybind (to_usize (e_max_iter e)) (fun max_iter =>
  pybind (to_usize (e_max_epochs e)) (fun max_epochs =>
  pybind (to_f64 (e_tol e)) (fun tol =>
  pybind (to_usize (e_p0 e)) (fun p0 =>
  pybind (to_usize (e_K e)) (fun K =>
  PyRet (set_verbose (e_verbose e)
        (set_K K
        (set_use_acceleration (e_use_accel e)
        (set_ws_start_size p0
        (set_tolerance tol
        (set_max_epochs max_epochs
        (set_max_iterations max_iter
        (set_shape shape
        (set_alpha alpha dflt)))))))))))))))).

(** wrappers' [fit] / [fit_sparse], e.g. lasso.rs 41-50: [self.inner.fit(&dataset).unwrap()] *)
Definition wrapper_fit {DM A} (check_ref : params F -> result (params F) (estimator_error F))
    (fit : params F -> dataset DM F -> res A) (p : params F) (ds : dataset DM F) : pyres A :=
  match fit_unchecked check_ref fit p ds with
  | Panic k => PyRaise (RustPanic k)
  | Ret (Err _) => PyRaise (RustPanic PUnwrap)
  | Ret (Ok c) => PyRet c
  end.

(** [fit], e.g. estimators.py 100-128 *)
Definition py_fit {DM A} (dflt : params F) (has_shape : bool)
    (check_ref : params F -> result (params F) (estimator_error F))
    (fit : params F -> dataset DM F -> res A) (e : estimator F) (ds : dataset DM F) : pyres A :=
  pybind (validate_params e) (fun _ =>
  pybind (wrapper_new dflt has_shape e) (fun p =>
  wrapper_fit check_ref fit p ds)).

(** [fit] of the multi-task classes, e.g. 180-219: [Y] must have two dimensions and as many rows
    as [X]; [rows] is [X.shape\[0\]] *)
Definition py_fit_mt {DM A} (rows : DM -> nat) (dflt : params F) (has_shape : bool)
    (check_ref : params F -> result (params F) (estimator_error F))
    (fit : params F -> dataset DM F -> res A) (e : estimator F) (ds : dataset DM F) : pyres A :=
  pybind (validate_params e) (fun _ =>
  match dtargets ds with
  | T1 _ => PyRaise ValueErr
  | T2 Y =>
      if negb (rows (design_matrix ds) =? mnr Y)%nat then PyRaise ValueErr
      else pybind (wrapper_new dflt has_shape e) (fun p => wrapper_fit check_ref fit p ds)
  end).

(** *** [predict], 45-49, for a one-dimensional [coef_] ([None] before [fit]) *)

(** truth value of a numpy array: the element for one element, [ValueError] for several.
    An empty array is false (with a deprecation warning). *)
Definition np_truth (a : list F) : pyres bool :=
  match a with
  | [] => PyRet false
  | [x] => PyRet (negb (feq o x (f0 o)))
  | _ => PyRaise ValueErr
  end.

Definition py_predict (coef : option (list F)) (X : mat F) : pyres (list F) :=
  pybind (match coef with None => PyRet false | Some c => np_truth c end) (fun truth =>
  match truth, coef with
  | true, Some c =>
      if (mnc X =? length c)%nat then PyRet (map (fun row => ndot o row c) (mrows X))
      else PyRaise ValueErr
  | _, _ => PyRaise NotFitted
  end).

(** two-dimensional [coef_]; [W] is the matrix returned by the wrapper, [coef_] its transpose, so
    that [X @ coef_.T] is [X @ W] *)
Definition np_truth2 (W : mat F) : pyres bool := np_truth (concat (mrows W)).
Definition py_predict_mt (coef : option (mat F)) (X : mat F) : pyres (mat F) :=
  pybind (match coef with None => PyRet false | Some W => np_truth2 W end) (fun truth =>
  match truth, coef with
  | true, Some W =>
      if (mnc X =? mnr W)%nat then
        PyRet (Mat (mnr X) (mnc W)
          (map (fun row => map (fun t => ndot o row (map (fun r => nth t r (f0 o)) (mrows W))) (seq 0 (mnc W))) (mrows X)))
      else PyRaise ValueErr
  | _, _ => PyRaise NotFitted
  end).
End Py.
