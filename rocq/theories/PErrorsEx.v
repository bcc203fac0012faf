(** Double-precision hyperparameters that are rejected, and what is reported. *)
From Coq Require Import List ZArith Bool Arith Lia Reals Lra.
From Flocq Require Import Core BinarySingleNaN.
From Verif Require Import Ops Arr MHyper IEEE MErrors SpecErrors PErrors PRunsEx PAgreeEx.
Import ListNotations.

Definition two52 : f64 := f64_of 4503599627370496.
(** 1 + 2^-52 and 1 - 2^-52 *)
Definition over1 : f64 := fadd ops64 (f1 ops64) (fdiv ops64 (f1 ops64) two52).
Definition under1 : f64 := fsub ops64 (f1 ops64) (fdiv ops64 (f1 ops64) two52).
(** - 2^-208 and - 2^208 *)
Definition small : f64 := fneg ops64 (fdiv ops64 (fdiv ops64 (fdiv ops64 (fdiv ops64 (f1 ops64) two52) two52) two52) two52).
Definition large : f64 := fneg ops64 (fmul ops64 (fmul ops64 two52 two52) (fmul ops64 two52 two52)).
Definition shaped64 (r : f64) : params f64 := set_shape r (elastic_net_params_new ops64).
Definition shaped32 (r : f32) : params f32 := set_shape r (elastic_net_params_new ops32).
Lemma bad_l1 r : fisneg ops64 (f1 ops64) = false -> flt ops64 (f1 ops64) r = true -> check_reported (elastic_net_check_ref ops64) (shaped64 r) = Err (InvalidL1Ratio (to_f32 r)).
Proof. intros H1 H. unfold check_reported, elastic_net_check_ref, shaped64, set_shape, elastic_net_params_new. cbn [p_alpha p_shape]. rewrite H1, H. reflexivity. Qed.
Lemma bad_gamma g : fisneg ops64 (f1 ops64) = false -> flt ops64 g (f1 ops64) = true -> check_reported (mcp_check_ref ops64) (shaped64 g) = Err (InvalidGamma (to_f32 g)).
Proof. intros H1 H. unfold check_reported, mcp_check_ref, shaped64, set_shape, elastic_net_params_new. cbn [p_alpha p_shape]. rewrite H1, H. reflexivity. Qed.
Lemma good_l1 r : fisneg ops32 (f1 ops32) = false -> fisneg ops32 (flit ops32 1 1000000) = false -> flt ops32 (f1 ops32) r || flt ops32 r (f0 ops32) = false ->
  check_reported (elastic_net_check_ref ops32) (shaped32 r) = Ok (shaped32 r).
Proof. intros H1 H2 H. unfold check_reported, elastic_net_check_ref, shaped32, set_shape, elastic_net_params_new. cbn [p_alpha p_shape p_tolerance p_K p_ws_start_size Nat.leb]. rewrite H1, H, H2. reflexivity. Qed.
Lemma good_gamma g : fisneg ops32 (f1 ops32) = false -> fisneg ops32 (flit ops32 1 1000000) = false -> flt ops32 g (f1 ops32) = false ->
  check_reported (mcp_check_ref ops32) (shaped32 g) = Ok (shaped32 g).
Proof. intros H1 H2 H. unfold check_reported, mcp_check_ref, shaped32, set_shape, elastic_net_params_new. cbn [p_alpha p_shape p_tolerance p_K p_ws_start_size Nat.leb]. rewrite H1, H, H2. reflexivity. Qed.
Lemma shown_valid : (exists p r q, check_reported (elastic_net_check_ref ops64) p = Err (InvalidL1Ratio r) /\ p_shape q = r /\ check_reported (elastic_net_check_ref ops32) q = Ok q) /\
  (exists p g q, check_reported (mcp_check_ref ops64) p = Err (InvalidGamma g) /\ p_shape q = g /\ check_reported (mcp_check_ref ops32) q = Ok q).
Proof.
  split.
  - exists (shaped64 over1), (to_f32 over1), (shaped32 (to_f32 over1)). split; [apply bad_l1; vm_compute; reflexivity|]. split; [reflexivity|]. apply good_l1; vm_compute; reflexivity.
  - exists (shaped64 under1), (to_f32 under1), (shaped32 (to_f32 under1)). split; [apply bad_gamma; vm_compute; reflexivity|]. split; [reflexivity|]. apply good_gamma; vm_compute; reflexivity.
Qed.
Lemma neg_alpha a : fisneg ops64 a = true -> check_reported (lasso_check_ref ops64) (set_alpha a (lasso_params_new ops64)) = Err (InvalidRegularization (to_f32 a)).
Proof. intros H. unfold check_reported, lasso_check_ref, set_alpha. cbn [p_alpha]. rewrite H. reflexivity. Qed.
Lemma neg_tol t : fisneg ops64 (f1 ops64) = false -> fisneg ops64 t = true -> check_reported (mt_lasso_check_ref ops64) (set_tolerance t (mt_lasso_params_new ops64)) = Err (InvalidTolerance (to_f32 t)).
Proof. intros H1 H. unfold check_reported, mt_lasso_check_ref, set_tolerance, mt_lasso_params_new. cbn [p_alpha p_tolerance]. rewrite H1, H. reflexivity. Qed.
Lemma ex_small : exists r, check_reported (lasso_check_ref ops64) (set_alpha small (lasso_params_new ops64)) = Err (InvalidRegularization r) /\ r = B754_zero true.
Proof. exists (to_f32 small). split; [apply neg_alpha; vm_compute; reflexivity|]. apply B2SF_inj. vm_compute. reflexivity. Qed.
Lemma ex_large : exists r, check_reported (lasso_check_ref ops64) (set_alpha large (lasso_params_new ops64)) = Err (InvalidRegularization r) /\ r = B754_infinity true.
Proof. exists (to_f32 large). split; [apply neg_alpha; vm_compute; reflexivity|]. apply B2SF_inj. vm_compute. reflexivity. Qed.
Lemma ex_tol : exists t, check_reported (mt_lasso_check_ref ops64) (set_tolerance (f64_of (-3)) (mt_lasso_params_new ops64)) = Err (InvalidTolerance t) /\ B2R t = (-3)%R.
Proof.
  exists (to_f32 (f64_of (-3))). split; [apply neg_tol; vm_compute; reflexivity|]. rewrite <- SF2R_B2SF. replace (B2SF (to_f32 (f64_of (-3)))) with (SpecFloat.S754_finite true 12582912 (-22)) by (vm_compute; reflexivity).
  unfold SF2R, F2R. cbn [Fnum Fexp cond_Zopp]. change (bpow radix2 (-22)) with (/ IZR 4194304)%R. change (IZR (- Z.pos 12582912)) with (-12582912)%R. lra.
Qed.
