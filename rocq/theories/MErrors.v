(** Model of the values carried by [EstimatorError]: [src/estimators/error.rs] 8-21 and the
    [.to_f32().unwrap()] calls in [src/estimators/hyperparams.rs] (159, 163, 334, 338, 521, 524, 527,
    712, 716, 901, 905, 909, 1094, 1098, 1102).  num_traits' [ToPrimitive::to_f32] on f32 and f64 is the
    cast [as f32], which never yields [None]: round to nearest even, overflow to infinity. *)
From Coq Require Import ZArith Bool.
From Flocq Require Import Core BinarySingleNaN.
From Verif Require Import Ops MHyper.

Notation single := (binary_float 24 128).
Definition Hps : Prec_gt_0 24 := eq_refl.
Definition Hms : Prec_lt_emax 24 128 := eq_refl.

Section Errors.
Context {prec emax : Z}.
Definition to_f32 (x : binary_float prec emax) : single :=
  match x with
  | B754_zero s => B754_zero s
  | B754_infinity s => B754_infinity s
  | B754_nan => B754_nan
  | B754_finite s m e _ => binary_normalize 24 128 Hps Hms mode_NE (cond_Zopp s (Zpos m)) e s
  end.
(** the error as the caller sees it *)
Definition reported (e : estimator_error (binary_float prec emax)) : estimator_error single :=
  match e with
  | InvalidRegularization a => InvalidRegularization (to_f32 a)
  | InvalidGamma g => InvalidGamma (to_f32 g)
  | InvalidTolerance t => InvalidTolerance (to_f32 t)
  | InvalidK k => InvalidK k
  | InvalidWSSize n => InvalidWSSize n
  | InvalidL1Ratio r => InvalidL1Ratio (to_f32 r)
  end.
(** [check_ref] with the value of the error converted *)
Definition check_reported (check_ref : params (binary_float prec emax) -> result (params (binary_float prec emax)) (estimator_error (binary_float prec emax)))
    (p : params (binary_float prec emax)) : result (params (binary_float prec emax)) (estimator_error single) :=
  match check_ref p with Ok q => Ok q | Err e => Err (reported e) end.
End Errors.
