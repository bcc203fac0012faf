(** Concrete instances for [PropRot]. *)
From Coq Require Import List ZArith Bool Arith Reals Lra Lia.
From Verif Require Import Ops Arr MUtils MDatasets MDatafits MDatafitsMT MPenalties MBlockPenalties MCd MBcd MHyper MEstimators XR IEEE SpecPen PBase RSum SpecLin SpecData PDataEx SpecSolve PLaws SpecOpt POptEx PRunsEx SpecPath PPathEx SpecRot.
Import ListNotations.
Open Scope R_scope.

(** two tasks turned by 3/5, 4/5, with a third one of zero targets between them *)
Definition qQ : rmat := fun u t => match u, t with 0%nat, 0%nat => 3/5 | 0%nat, 2%nat => 4/5 | 1%nat, 0%nat => -4/5 | 1%nat, 2%nat => 3/5 | _, _ => 0 end.
Lemma qQ_iso : isometry 2 3 qQ.
Proof. intros u v Hu Hv. rewrite !Sum_S, Sum_0. destruct u as [|[|u]], v as [|[|v]]; try lia; cbn [qQ Nat.eqb]; field. Qed.
Definition mxpr : params xr := Params (Fin (1/10)) (Fin (1/2)) 50 50 3 (Fin (1/10000)) 3 false false.
Definition fit_mx (T : nat) (Y : rmat) m := mt_estimator_dense (dsort xops) (MtEnetPen (1/10) (1/2)) (set_max_iterations m mxpr) (Dataset (xm 3 3 (entry exE)) (T2 (xm 3 T Y))).
Lemma ex_fit_mx T Y : multi_fit (dsort xops) 3 3 T (entry exE) Y (MtEnetPen (1/10) (1/2)) (settings mxpr) (fit_mx T Y) /\ accepted (fit_mx T Y).
Proof.
  split; [apply (mt_fit_dense (dsort xops) 3 3 T (entry exE) Y (MtEnetPen (1/10) (1/2)) mxpr (T2 (xm 3 T Y))); [left; reflexivity|split; reflexivity|cbn; lra]|].
  intros m e. unfold fit_mx, mt_estimator_dense, fit_unchecked, mt_elastic_net_check_ref, set_max_iterations, mxpr. cbn [p_alpha p_shape p_tolerance p_K p_ws_start_size fisneg flt f1 f0 xops xisneg xlt fle xle Nat.eqb].
  rewrite ?(proj2 (Rltb_false _ _)) by lra. cbn [orb Nat.leb]. match goal with |- bind ?r _ <> _ => destruct r; discriminate end.
Qed.
Definition fit_mk (T : nat) (Y : rmat) m := mt_estimator_dense (dsort xops) (MtLassoPen (1/10)) (set_max_iterations m (opr (1/10) 3)) (Dataset (xm 3 3 (entry exE)) (T2 (xm 3 T Y))).
Lemma ex_fit_mk T Y : multi_fit (dsort xops) 3 3 T (entry exE) Y (MtLassoPen (1/10)) (settings (opr (1/10) 3)) (fit_mk T Y) /\ accepted (fit_mk T Y).
Proof.
  split; [apply (mt_fit_dense (dsort xops) 3 3 T (entry exE) Y (MtLassoPen (1/10)) (opr (1/10) 3) (T2 (xm 3 T Y))); [left; reflexivity|reflexivity|cbn; lra]|].
  intros m e. unfold fit_mk, mt_estimator_dense, fit_unchecked, mt_lasso_check_ref, set_max_iterations, opr. cbn [p_alpha p_shape p_tolerance p_K p_ws_start_size fisneg flt f1 f0 xops xisneg xlt fle xle Nat.eqb].
  rewrite ?(proj2 (Rltb_false _ _)) by lra. cbn [orb Nat.leb]. match goal with |- bind ?r _ <> _ => destruct r; discriminate end.
Qed.
Lemma patient_mk : patient 3 2 (settings (opr (1/10) 3)) (1/100) /\ patient 3 3 (settings (opr (1/10) 3)) (1/100).
Proof.
  destruct (patient_opr (1/10) 3) as [_ H]. split; [exact H|]. destruct H as (E1 & E2 & E3 & E4 & E5 & E6). split; [exact E1|]. split; [exact E2|]. split; [exact E3|]. split; [exact E4|]. split; [exact E5|].
  cbn in *. destruct E6 as [?|E6]; [discriminate|]. right. lia.
Qed.

(** *** swapped tasks with extrapolation, in doubles *)
Local Open Scope nat_scope.
Definition swX : mat f64 := Mat 3 2 (map (map f64_of) [[-4; -3]; [-2; -3]; [-3; -3]]%Z).
Definition swY : mat f64 := Mat 3 2 (map (map f64_of) [[-7; 1]; [12; 19]; [3; -11]]%Z).
Definition swpr : params f64 := Params (flit ops64 1 10) (f0 ops64) 1 3 2 (flit ops64 1 1000) 2 true false.
Definition at_of (j t : nat) (r : res (result (mat f64) (estimator_error f64))) : option f64 :=
  match r with Ret (Ok m) => match mget m j t with Ret x => Some x | _ => None end | _ => None end.
Lemma swap_refuted : exists (pr : params f64) X Y Y' x x', mrows Y' = map (@rev f64) (mrows Y) /\
  at_of 0 0 (fit_unchecked (mt_lasso_check_ref ops64) (mt_lasso_fit_dense ops64 srt64) pr (Dataset X (T2 Y))) = Some x /\
  at_of 0 1 (fit_unchecked (mt_lasso_check_ref ops64) (mt_lasso_fit_dense ops64 srt64) pr (Dataset X (T2 Y'))) = Some x' /\
  flt ops64 (flit ops64 1 10) (fabs ops64 (fsub ops64 x x')) = true.
Proof.
  exists swpr, swX, swY, (Mat 3 2 (map (@rev f64) (mrows swY))).
  set (h := at_of 0 0 (fit_unchecked (mt_lasso_check_ref ops64) (mt_lasso_fit_dense ops64 srt64) swpr (Dataset swX (T2 swY)))).
  set (h' := at_of 0 1 (fit_unchecked (mt_lasso_check_ref ops64) (mt_lasso_fit_dense ops64 srt64) swpr (Dataset swX (T2 (Mat 3 2 (map (@rev f64) (mrows swY))))))).
  assert (E : match h, h' with Some x, Some x' => flt ops64 (flit ops64 1 10) (fabs ops64 (fsub ops64 x x')) | _, _ => false end = true) by (vm_compute; reflexivity).
  destruct h as [x|]; [|discriminate]. destruct h' as [x'|]; [|discriminate]. exists x, x'. split; [reflexivity|auto].
Qed.
