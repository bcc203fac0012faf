(** Concrete instances for [PropPanics]. *)
From Coq Require Import List ZArith Bool Arith Lia Reals Lra.
From Verif Require Import Ops Arr MUtils MDatasets MDatafits MPenalties MCd MHyper MEstimators MPython XR VecR RSum PBase SpecPen SpecLin SpecData SpecDatafit SpecSolve SpecOpt SpecParams PDatafit PDataProps PDataEx PLaws POptEx PFitOpt PNullFit PNullEx PNullEx2 SpecNull PPanics.
Import ListNotations.
Open Scope R_scope.

(** default parameters, weight 1/10; the largest correlation is 2/3 (three features) *)
Definition pan (a : R) : params xr := set_alpha (Fin a) (lasso_params_new xops).
Lemma pan_default a : otherwise_default (pan a) /\ carries (LassoPen a) (pan a) /\ carries_mt (MtLassoPen a) (pan a).
Proof. repeat split. Qed.
Definition fit_pan m := estimator_dense (dsort xops) (LassoPen (1/10)) (set_max_iterations m (pan (1/10))) (Dataset (xm 3 3 (entry exE)) (T1 (xv 3 oy))).
Lemma pan_ex : single_fit (dsort xops) 3 3 (entry exE) oy Squared (LassoPen (1/10)) (settings (pan (1/10))) fit_pan /\ accepted fit_pan /\
  s_tolerance (settings (pan (1/10))) = Fin (1/1000000) /\ s_use_acceleration (settings (pan (1/10))) = true /\
  (Nat.min (s_ws_start_size (settings (pan (1/10)))) 3 < s_K (settings (pan (1/10))))%nat /\ (s_K (settings (pan (1/10))) <= 10)%nat /\ (s_K (settings (pan (1/10))) < s_max_epochs (settings (pan (1/10))))%nat.
Proof.
  split; [|split; [|repeat split]].
  - apply (fit_dense (dsort xops) 3 3 (entry exE) oy (LassoPen (1/10)) (pan (1/10)) (T1 (xv 3 oy))); [left; reflexivity|reflexivity].
  - intros m e. exact (check_single (LassoPen (1/10)) (pan (1/10)) m (proj1 (pan_default _)) eq_refl ltac:(cbn; lra) I _ _ _ e).
  - cbn. lia.
  - cbn. lia.
  - cbn. lia.
Qed.
Lemma pan_not_stationary : ~ stationary (1/1000000) (loss1 Squared 3 oy) 3 (entry exE) (pen1 (LassoPen (1/10))) (fun _ => 0).
Proof. change (pen1 (LassoPen (1/10))) with (pen1 (LassoPen (1/10))). rewrite (zero_iff 3 3 ltac:(lia) (entry exE) oy (LassoPen (1/10)) (2/3) am_ex) by (cbn; lra). cbn. lra. Qed.
Definition fit_panT m := mt_estimator_dense (dsort xops) (MtLassoPen (1/10)) (set_max_iterations m (pan (1/10))) (Dataset (xm 1 1 oneX1) (T2 (xm 1 1 oneY1))).
Lemma panT_ex : multi_fit (dsort xops) 1 1 1 oneX1 oneY1 (MtLassoPen (1/10)) (settings (pan (1/10))) fit_panT /\ accepted fit_panT /\
  slope_mt (MtLassoPen (1/10)) + 1/1000000 < zero_level (MtLassoPen (1/10)) (1/2) /\
  (Nat.min (s_ws_start_size (settings (pan (1/10)))) 1 * 1 < s_K (settings (pan (1/10))))%nat.
Proof.
  split; [|split; [|split]].
  - apply (mt_fit_dense (dsort xops) 1 1 1 oneX1 oneY1 (MtLassoPen (1/10)) (pan (1/10)) (T2 (xm 1 1 oneY1))); [left; reflexivity|reflexivity|cbn; lra].
  - intros m e. exact (check_multi (MtLassoPen (1/10)) (pan (1/10)) m (proj1 (pan_default _)) eq_refl ltac:(cbn; lra) _ _ _ e).
  - cbn. lra.
  - cbn. lia.
Qed.
Lemma pan_slope : slope (LassoPen (1/10)) + 1/1000000 < 2/3.
Proof. cbn. lra. Qed.

(** a Python estimator with default settings except [alpha] *)
Definition pyE : estimator xr := Estimator (PyFloat (Fin (1/10))) PyOther (PyInt 50) (PyInt 1000) (PyFloat (Fin (1/1000000))) (PyInt 10) true (PyInt 5) true.
Lemma pyE_describes : describes xops (lasso_params_new xops) false pyE (pan (1/10)).
Proof.
  unfold describes, pyE, pan. cbn [e_alpha e_max_iter e_max_epochs e_p0 e_tol e_K e_use_accel e_verbose e_shape p_alpha p_shape p_max_iterations p_max_epochs p_ws_start_size p_tolerance p_K p_use_acceleration p_verbose set_alpha lasso_params_new].
  repeat split; try constructor; try (change (PyInt 50) with (@PyInt xr (Z.of_nat 50)) || change (PyInt 1000) with (@PyInt xr (Z.of_nat 1000)) || change (PyInt 10) with (@PyInt xr (Z.of_nat 10)) || change (PyInt 5) with (@PyInt xr (Z.of_nat 5)); constructor; lia).
  change (Rltb (1/1000000) (0 / 1) = false). apply Rltb_false. lra.
Qed.
Lemma py_null : exists pr c, describes xops (lasso_params_new xops) false pyE pr /\ fit_unchecked (lasso_check_ref xops) (lasso_fit_dense xops (dsort xops)) pr (Dataset (xm 3 3 (fun _ _ => 0)) (T1 (xv 3 oy))) = Ret (Ok c).
Proof.
  exists (pan (1/10)), (xv 3 (fun _ => 0)). split; [apply pyE_describes|].
  assert (Ham : reported_alpha_max 3 3 (fun _ _ => 0) oy 0).
  { left. rewrite (alpha_max_dense 3 3 (fun _ _ => 0) oy) by lia. do 2 f_equal. unfold maxabs, xty. cbn [seq map fold_left]. rewrite !Sum_S, !Sum_0, !Rmult_0_l, !Rplus_0_l, Rabs_R0, !(Rmax_left 0 0) by lra. cbn [INR]. field. }
  destruct (default_single (dsort xops) xr_sort 3 3 ltac:(lia) (fun _ _ => 0) oy (T1 (xv 3 oy)) (LassoPen (1/10)) (pan (1/10)) 0) as [H _]; auto; try apply pan_default; [cbn; lra|left; reflexivity|].
  apply H. cbn. lra.
Qed.
Lemma bad_shapes : (forall Y, @T1 xr (xv 3 oy) = T2 Y -> mnr (xm 3 1 (fun _ _ => 1)) <> mnr Y) /\ (forall Y, @T2 xr (xm 2 1 (fun _ _ => 1)) = T2 Y -> mnr (xm 3 1 (fun _ _ => 1)) <> mnr Y).
Proof. split; intros Y E; [discriminate|]. injection E as <-. cbn. lia. Qed.
