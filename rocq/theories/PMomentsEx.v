(** Instances for the properties about second moments. *)
From Coq Require Import List ZArith Bool Arith Reals Lra Lia.
From Verif Require Import Ops Arr MUtils MDatasets MDatafits MDatafitsMT MPenalties MBlockPenalties MCd MBcd MHyper MEstimators XR SpecPen VecR PBase RSum SpecLin SpecData PDatafit PDataProps SpecSolve PLaws SpecOpt SpecPath SpecLimits PLimits PLimitsEx PScaleFit SpecMoments PMoments.
Import ListNotations.
Open Scope R_scope.

Definition fit_ln n p X y a s m := estimator_dense (dsort xops) (LassoPen a) (set_max_iterations m (gpr a s)) (Dataset (xm n p X) (T1 (xv n y))).
Lemma ex_fit_ln n p X y a s : 0 <= a -> single_fit (dsort xops) n p X y Squared (LassoPen a) (settings (gpr a s)) (fit_ln n p X y a s) /\ accepted (fit_ln n p X y a s).
Proof.
  intros Ha. split; [apply (fit_dense (dsort xops) n p X y (LassoPen a) (gpr a s) (T1 (xv n y))); [left; reflexivity|reflexivity]|].
  intros m e. unfold fit_ln, estimator_dense, fit_unchecked, lasso_check_ref, set_max_iterations, gpr. cbn [p_alpha p_shape p_tolerance p_K p_ws_start_size fisneg flt f1 f0 xops xisneg xlt fle xle Nat.eqb].
  rewrite ?(proj2 (Rltb_false _ _)) by lra. cbn [orb Nat.leb]. match goal with |- bind ?r _ <> _ => destruct r; discriminate end.
Qed.
Definition fit_mn n p T X Y a m := mt_estimator_dense (dsort xops) (MtLassoPen a) (set_max_iterations m (gpr a 1)) (Dataset (xm n p X) (T2 (xm n T Y))).
Lemma ex_fit_mn n p T X Y a : 0 < a -> multi_fit (dsort xops) n p T X Y (MtLassoPen a) (settings (gpr a 1)) (fit_mn n p T X Y a) /\ accepted (fit_mn n p T X Y a).
Proof.
  intros Ha. split; [apply (mt_fit_dense (dsort xops) n p T X Y (MtLassoPen a) (gpr a 1)); [left; reflexivity|reflexivity|simpl; lra]|].
  intros m e. unfold fit_mn, mt_estimator_dense, fit_unchecked, mt_lasso_check_ref, set_max_iterations, gpr. cbn [p_alpha p_shape p_tolerance p_K p_ws_start_size fisneg flt f1 f0 xops xisneg xlt fle xle Nat.eqb].
  rewrite ?(proj2 (Rltb_false _ _)) by lra. cbn [orb Nat.leb]. match goal with |- bind ?r _ <> _ => destruct r; discriminate end.
Qed.
(** a rotation of two samples *)
Definition turn : rmat := fun r i => match r, i with 0%nat, 0%nat => 3/5 | 0%nat, _ => 4/5 | _, 0%nat => -4/5 | _, _ => 3/5 end.
Lemma turn_ok : preserves_means 2 2 turn.
Proof. intros i j Hi Hj. rewrite !Sum_S, !Sum_0. assert (i = 0 \/ i = 1)%nat as [->| ->] by lia; assert (j = 0 \/ j = 1)%nat as [->| ->] by lia; cbn; field. Qed.
Definition lmY : rmat := fun i t => match t with 0%nat => lmy i | _ => 1 end.
Lemma turn_moves : mix 2 turn lmX 0%nat 0%nat <> lmX 0%nat 0%nat /\ lmX 0%nat 0%nat <> 0.
Proof. unfold mix. rewrite !Sum_S, !Sum_0. cbn. lra. Qed.
(** long runs on the turned data do not return zero *)
Lemma turn_settles : exists N w, (exists j, (j < 2)%nat /\ w j <> 0) /\ forall m, (N <= m)%nat -> fit_ln 2 2 (mix 2 turn lmX) (mix1 2 turn lmy) 0 1 m = Ret (Ok (xv 2 w)).
Proof.
  destruct (ex_fit_ln 2 2 (mix 2 turn lmX) (mix1 2 turn lmy) 0 1 (Rle_refl 0)) as [A B]. destruct (ex_fit_ln 2 2 lmX lmy 0 1 (Rle_refl 0)) as [A0 B0].
  assert (E := moments_fit (dsort xops) xr_sort 2 2 2 ltac:(lia) ltac:(lia) _ _ _ _ _ _ _ _ A0 A B0 B (mixed_moments 2 2 2 turn lmX lmy ltac:(lia) ltac:(lia) turn_ok)).
  destruct (unpenalised_fit (dsort xops) xr_sort 2 2 lmX lmy Squared _ _ (1/1000) ltac:(lia) I A0 B0 (patient_gpr 2 1 0 1)) as (N & w & [Hq _] & Hw).
  exists N, w. split; [|intros m Hm; rewrite E; auto]. destruct (Req_dec (w 0%nat) 0) as [E0|E0]; [|exists 0%nat; split; [lia|auto]]. exfalso.
  pose proof (Hq 0%nat ltac:(lia)) as H. cbn [correlation] in H. unfold lin in H. rewrite !Sum_S, !Sum_0 in H. cbn in H. rewrite E0 in H.
  revert H. unfold Rabs. destruct (Rcase_abs _); lra.
Qed.
Lemma aug_pos : 0 <= 1 * (1 - 0). Proof. lra. Qed.
Lemma aug_fit_ex : exists f, single_fit (dsort xops) (2 + 2) 2 (augmented_design 2 2 (1 * (1 - 0)) lmX) (augmented_targets 2 2 lmy) Squared (LassoPen (1 * 0)) (settings (gpr 1 0)) f /\ accepted f.
Proof. exists (fit_ln (2 + 2) 2 (augmented_design 2 2 (1 * (1 - 0)) lmX) (augmented_targets 2 2 lmy) (1 * 0) 0). apply (ex_fit_ln (2 + 2) 2 _ _ (1 * 0) 0). lra. Qed.
