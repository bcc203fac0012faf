(** Concrete instances for [PropCert]. *)
From Coq Require Import List ZArith Bool Arith Reals Lra Lia.
From Verif Require Import Ops Arr MDatasets MHyper MEstimators XR PBase RSum SpecPen VecR SpecLin SpecData SpecSolve SpecOpt PDatafit PLaws PSubdiff PSubdiffBlock PDescent PFitOpt PCert PDataEx POptEx.
Import ListNotations.
Open Scope R_scope.

Lemma ex_min1 : stationary 0 (loss1 Squared 1 (fun _ => 2)) 1 (fun _ _ => 1) (pen1 (LassoPen 1)) (fun _ => 1).
Proof.
  apply stationary_iff; [lia|simpl; lra|]. intros j Hj. cbn [dist1 dloss1]. unfold r_l1_score, gq, lin. rewrite (proj2 (Reqb_false 1 0)) by lra.
  rewrite !Sum_S, !Sum_0. simpl INR. unfold rsign. destruct (Rltb 1 0) eqn:E; rb; [lra|].
  match goal with |- Rabs ?x <= 0 => replace x with 0 by field end. rewrite Rabs_R0. lra.
Qed.
Lemma ex_min1_mt : stationary_mt 0 (quad_loss_mt 1 1 (fun _ _ => 2)) 1 1 (fun _ _ => 1) (penT (MtLassoPen 1)) (fun _ _ => 1).
Proof.
  apply mt_lasso_stationary_iff; [lia|lra|]. intros j Hj. unfold r_l21_score, gq, lin_mt. unfold tab. cbn [seq map]. rewrite !Sum_S, !Sum_0. simpl INR.
  assert (E1 : norm2 [1] = 1) by (unfold norm2; simpl; replace (1 * 1 + 0) with (1 * 1) by ring; apply sqrt_square; lra). rewrite E1. rewrite (proj2 (Reqb_false 1 0)) by lra.
  unfold norm2. apply Req_le. rewrite <- sqrt_0. f_equal. simpl. rewrite ?sqrt_0. field.
Qed.
Lemma ex_log_settles : settles 3 (stationary (1/100) (loss1 Logistic 3 oy) 3 (entry exE) (pen1 (EnetPen (1/10) (1/2)))) fit_log.
Proof.
  apply (c27_single (dsort xops) xr_sort 3 3 ltac:(lia) _ _ _ _ _ _ ex_fit_log (proj1 (proj2 ex_ok)) I); try apply ex_settings; try apply ex_accepted. lra.
Qed.
Lemma ex_mtl_settles : settles_mt 3 2 (stationary_mt (1/100) (quad_loss_mt 3 2 oY) 3 2 (entry exE) (penT (MtLassoPen (1/10)))) fit_mtl.
Proof.
  apply (c27_multi (dsort xops) xr_sort 3 3 ltac:(lia) 2 _ _ _ _ _ ex_fit_mtl); try apply ex_settings; try apply ex_accepted. lra.
Qed.
