(** Property theorems C103: what the error of a rejected hyperparameter reports.  [checks] are the
    validations of the six estimators, [check_reported] is a validation as its caller sees it. *)
From Coq Require Import List ZArith Bool Arith Reals.
From Flocq Require Import Core BinarySingleNaN.
From Verif Require Import Ops Arr MHyper IEEE MErrors SpecErrors PErrors PRunsEx PAgreeEx PErrorsEx.
Import ListNotations.

Theorem C103_reported_value prec emax (Hp : Prec_gt_0 prec) (Hm : Prec_lt_emax prec emax) m chk p e :
  In chk (checks (ieee_ops prec emax Hp Hm m)) -> check_reported chk p = Err e -> tells p e.
Proof. exact (c103 Hp Hm m chk p e). Qed.
Print Assumptions C103_reported_value.
(** in single precision the value is the offending one *)
Theorem C103_single_precision (chk : params single -> result (params single) (estimator_error single)) p e :
  check_reported chk p = Err e <-> chk p = Err e.
Proof. exact (single_exact chk p e). Qed.
Print Assumptions C103_single_precision.
(** a reported strength or tolerance is rejected again *)
Theorem C103_strength_rejected_again prec emax (Hp : Prec_gt_0 prec) (Hm : Prec_lt_emax prec emax) m chk p a :
  In chk (checks (ieee_ops prec emax Hp Hm m)) -> check_reported chk p = Err (InvalidRegularization a) ->
  forall m' chk' q, In chk' (checks (ieee_ops 24 128 Hps Hms m')) -> p_alpha q = a -> check_reported chk' q = Err (InvalidRegularization a).
Proof. exact (again_alpha Hp Hm m chk p a). Qed.
Print Assumptions C103_strength_rejected_again.
Theorem C103_tolerance_rejected_again prec emax (Hp : Prec_gt_0 prec) (Hm : Prec_lt_emax prec emax) m chk p t :
  In chk (checks (ieee_ops prec emax Hp Hm m)) -> check_reported chk p = Err (InvalidTolerance t) ->
  forall m' chk' q, In chk' (checks (ieee_ops 24 128 Hps Hms m')) -> p_tolerance q = t -> exists e, check_reported chk' q = Err e.
Proof. exact (again_tolerance Hp Hm m chk p t). Qed.
Print Assumptions C103_tolerance_rejected_again.
(** not so for [l1_ratio] and [gamma]: the value shown as invalid may be a valid one *)
Theorem C103_shown_value_invalid_refuted :
  (exists p r q, check_reported (elastic_net_check_ref ops64) p = Err (InvalidL1Ratio r) /\ p_shape q = r /\ check_reported (elastic_net_check_ref ops32) q = Ok q) /\
  (exists p g q, check_reported (mcp_check_ref ops64) p = Err (InvalidGamma g) /\ p_shape q = g /\ check_reported (mcp_check_ref ops32) q = Ok q).
Proof. exact shown_valid. Qed.
Print Assumptions C103_shown_value_invalid_refuted.
(** alpha = -2^-208 is reported as -0, alpha = -2^208 as minus infinity, tolerance -3 as -3 *)
Example C103_nonvacuous :
  (In (lasso_check_ref ops64) (checks ops64) /\ In (mt_lasso_check_ref ops64) (checks ops64)) /\
  (exists r, check_reported (lasso_check_ref ops64) (set_alpha small (lasso_params_new ops64)) = Err (InvalidRegularization r) /\ r = B754_zero true) /\
  (exists r, check_reported (lasso_check_ref ops64) (set_alpha large (lasso_params_new ops64)) = Err (InvalidRegularization r) /\ r = B754_infinity true) /\
  (exists t, check_reported (mt_lasso_check_ref ops64) (set_tolerance (f64_of (-3)) (mt_lasso_params_new ops64)) = Err (InvalidTolerance t) /\ B2R t = (-3)%R).
Proof. exact (conj (conj (or_introl eq_refl) (or_intror (or_introl eq_refl))) (conj ex_small (conj ex_large ex_tol))). Qed.
