(** Vocabulary for statements about error values. *)
From Coq Require Import List ZArith Bool Reals.
From Flocq Require Import Core BinarySingleNaN.
From Verif Require Import Ops MHyper IEEE MErrors.
Import ListNotations.
Open Scope R_scope.

(** nearest single-precision value of a real, ties to even, without bound on the exponent *)
Definition near32 (x : R) : R := round radix2 (FLT_exp (-149) 24) ZnearestE x.
(** [r] is what single precision makes of [x]: same sign; same kind if [x] is not finite; the nearest
    value if that is in range; else an infinity *)
Definition image32 {prec emax} (x : binary_float prec emax) (r : binary_float 24 128) : Prop :=
  Bsign r = Bsign x /\ is_nan r = is_nan x /\
  (is_finite x = false -> is_finite r = false) /\
  (is_finite x = true -> (Rabs (near32 (B2R x)) < bpow radix2 128 -> is_finite r = true /\ B2R r = near32 (B2R x)) /\
                         (bpow radix2 128 <= Rabs (near32 (B2R x)) -> is_finite r = false)).
(** the validations of the six estimators *)
Definition checks {F} (o : FOps F) : list (params F -> result (params F) (estimator_error F)) :=
  [lasso_check_ref o; mt_lasso_check_ref o; mcp_check_ref o; block_mcp_check_ref o; elastic_net_check_ref o; mt_elastic_net_check_ref o].
Definition one32 : single := @Bone 24 128 Hps Hms.
Definition zero32 : single := B754_zero false.
(** what the error [e] says about the parameters [p] *)
Definition tells {prec emax} (p : params (binary_float prec emax)) (e : estimator_error single) : Prop :=
  match e with
  | InvalidRegularization a => image32 (p_alpha p) a /\ Bsign a = true
  | InvalidGamma g => image32 (p_shape p) g /\ Bleb g one32 = true
  | InvalidL1Ratio r => image32 (p_shape p) r /\ (Bleb one32 r = true \/ Bleb r zero32 = true)
  | InvalidTolerance t => image32 (p_tolerance p) t /\ Bsign t = true
  | InvalidK k => k = p_K p /\ k = 0%nat
  | InvalidWSSize n => n = p_ws_start_size p /\ n = 0%nat
  end.
