(** Instances for the properties about special and limiting settings. *)
From Coq Require Import List ZArith Bool Arith Reals Lra Lia.
From Flocq Require Import Core BinarySingleNaN.
From Verif Require Import Ops Arr IEEE SpecRound SpecSolve MUtils MDatasets MDatafits MDatafitsMT MPenalties MBlockPenalties MCd MBcd MHyper MEstimators XR SpecPen VecR PBase RSum SpecLin SpecData PDatafit PCalc PDataProps PLaws SpecOpt SpecNull PNullFit PNullMt PNullEx2 PRefPen SpecPath PScreen PFloat PRoundEx PRunsEx PTraceEx SpecLimits PLimits.
Import ListNotations.
Open Scope R_scope.

Definition gpr (a s : R) : params xr := Params (Fin a) (Fin s) 50 50 3 (Fin (1/1000)) 3 false false.
Lemma patient_gpr p w a s : patient p w (settings (gpr a s)) (1/1000).
Proof. split; [reflexivity|]. split; [lra|]. cbn. repeat split; try lia; left; reflexivity. Qed.
Definition fit_l X y a s m := estimator_dense (dsort xops) (LassoPen a) (set_max_iterations m (gpr a s)) (Dataset (xm 2 2 X) (T1 (xv 2 y))).
Lemma ex_fit_l X y a s : 0 <= a -> single_fit (dsort xops) 2 2 X y Squared (LassoPen a) (settings (gpr a s)) (fit_l X y a s) /\ accepted (fit_l X y a s).
Proof.
  intros Ha. split; [apply (fit_dense (dsort xops) 2 2 X y (LassoPen a) (gpr a s) (T1 (xv 2 y))); [left; reflexivity|reflexivity]|].
  intros m e. unfold fit_l, estimator_dense, fit_unchecked, lasso_check_ref, set_max_iterations, gpr. cbn [p_alpha p_shape p_tolerance p_K p_ws_start_size fisneg flt f1 f0 xops xisneg xlt fle xle Nat.eqb].
  rewrite ?(proj2 (Rltb_false _ _)) by lra. cbn [orb Nat.leb]. match goal with |- bind ?r _ <> _ => destruct r; discriminate end.
Qed.
Definition fit_e X y a r m := estimator_dense (dsort xops) (EnetPen a r) (set_max_iterations m (gpr a r)) (Dataset (xm 2 2 X) (T1 (xv 2 y))).
Lemma ex_fit_e X y a r : 0 <= a -> 0 <= r <= 1 -> single_fit (dsort xops) 2 2 X y Squared (EnetPen a r) (settings (gpr a r)) (fit_e X y a r) /\ accepted (fit_e X y a r).
Proof.
  intros Ha Hr. split; [apply (fit_dense (dsort xops) 2 2 X y (EnetPen a r) (gpr a r) (T1 (xv 2 y))); [left; reflexivity|split; reflexivity]|].
  intros m e. unfold fit_e, estimator_dense, fit_unchecked, elastic_net_check_ref, set_max_iterations, gpr. cbn [p_alpha p_shape p_tolerance p_K p_ws_start_size fisneg flt f1 f0 xops xisneg xlt fle xle Nat.eqb].
  rewrite ?(proj2 (Rltb_false _ _)) by lra. cbn [orb Nat.leb]. match goal with |- bind ?r _ <> _ => destruct r; discriminate end.
Qed.
(** the columns of [1 1; 1 -1] and targets whose ridge solution at level 1 is (1, 1/2) *)
Definition lmX : rmat := fun i j => match i, j with S _, S _ => -1 | _, _ => 1 end.
Definition lmy : nat -> R := fun i => match i with 0%nat => 3 | _ => 1 end.
Definition lmv : nat -> R := fun j => match j with 0%nat => 1 | _ => 1/2 end.
Lemma lmv_solves : solves_equations 0 Squared 2 2 lmX lmy 1 lmv.
Proof.
  intros j Hj. right. apply Rabs_0_eq || idtac. cbn [correlation]. unfold lin. rewrite !Sum_S, !Sum_0. assert (j = 0 \/ j = 1)%nat as [->| ->] by lia; cbn; match goal with |- Rabs ?x = 0 => replace x with 0 by field end; apply Rabs_R0.
Qed.
(** columns that differ a little *)
Definition nearX : rmat := fun i j => match i, j with 0%nat, S _ => 101/100 | _, _ => 1 end.
Lemma near_gap : 0 < column_gap Squared 2 nearX lmy 0 1.
Proof.
  unfold column_gap, rms. rewrite !Sum_S, !Sum_0. cbn. apply Rmult_lt_0_compat; apply sqrt_lt_R0; lra.
Qed.

(** *** the multi-task elastic net with ratio one is not the multi-task Lasso *)
Definition fit_me m := mt_estimator_dense (dsort xops) (MtEnetPen (3/10) 1) (set_max_iterations m (gpr (3/10) 1)) (Dataset (xm 1 1 oneX1) (T2 (xm 1 1 oneY1))).
Definition fit_ml m := mt_estimator_dense (dsort xops) (MtLassoPen (3/10)) (set_max_iterations m (gpr (3/10) 1)) (Dataset (xm 1 1 oneX1) (T2 (xm 1 1 oneY1))).
Lemma ex_fit_me : multi_fit (dsort xops) 1 1 1 oneX1 oneY1 (MtEnetPen (3/10) 1) (settings (gpr (3/10) 1)) fit_me /\ accepted fit_me.
Proof.
  split; [apply (mt_fit_dense (dsort xops) 1 1 1 oneX1 oneY1 (MtEnetPen (3/10) 1) (gpr (3/10) 1)); [left; reflexivity|split; reflexivity|simpl; lra]|].
  intros m e. unfold fit_me, mt_estimator_dense, fit_unchecked, mt_elastic_net_check_ref, set_max_iterations, gpr. cbn [p_alpha p_shape p_tolerance p_K p_ws_start_size fisneg flt f1 f0 xops xisneg xlt fle xle Nat.eqb].
  rewrite ?(proj2 (Rltb_false _ _)) by lra. cbn [orb Nat.leb]. match goal with |- bind ?r _ <> _ => destruct r; discriminate end.
Qed.
Lemma ex_fit_ml : multi_fit (dsort xops) 1 1 1 oneX1 oneY1 (MtLassoPen (3/10)) (settings (gpr (3/10) 1)) fit_ml /\ accepted fit_ml.
Proof.
  split; [apply (mt_fit_dense (dsort xops) 1 1 1 oneX1 oneY1 (MtLassoPen (3/10)) (gpr (3/10) 1)); [left; reflexivity|reflexivity|simpl; lra]|].
  intros m e. unfold fit_ml, mt_estimator_dense, fit_unchecked, mt_lasso_check_ref, set_max_iterations, gpr. cbn [p_alpha p_shape p_tolerance p_K p_ws_start_size fisneg flt f1 f0 xops xisneg xlt fle xle Nat.eqb].
  rewrite ?(proj2 (Rltb_false _ _)) by lra. cbn [orb Nat.leb]. match goal with |- bind ?r _ <> _ => destruct r; discriminate end.
Qed.
Lemma ratio_one_mt_refuted : exists srt n p T X Y a s fit fit', valid_sort xops srt /\ (1 <= n)%nat /\ multi_fit srt n p T X Y (MtEnetPen a 1) s fit /\ multi_fit srt n p T X Y (MtLassoPen a) s fit' /\
  accepted fit /\ accepted fit' /\ (forall m, fit m = Ret (Ok (xm p T (fun _ _ => 0)))) /\ exists N, forall m, (N <= m)%nat -> fit' m <> fit m.
Proof.
  exists (dsort xops), 1%nat, 1%nat, 1%nat, oneX1, oneY1, (3/10), (settings (gpr (3/10) 1)), fit_me, fit_ml. split; [apply xr_sort|]. split; [lia|].
  destruct ex_fit_me as [A B]. destruct ex_fit_ml as [C D]. split; [exact A|]. split; [exact C|]. split; [exact B|]. split; [exact D|].
  assert (Z : forall m, fit_me m = Ret (Ok (xm 1 1 (fun _ _ => 0)))).
  { apply (enet_mt_stops (dsort xops) xr_sort 1 1 ltac:(lia) 1 oneX1 oneY1 (3/10) 1 (settings (gpr (3/10) 1)) fit_me (1/1000)); auto; [lra|].
    intros j _. unfold xty_norm. rewrite !Sum_S, !Sum_0. unfold oneX1, oneY1. replace (0 + (0 + 1 * (1 / 2)) ^ 2) with ((1/2) * (1/2)) by field. rewrite sqrt_square by lra. cbn. lra. }
  split; [exact Z|].
  destruct (read_fit_mt (dsort xops) xr_sort 1 1 1 oneX1 oneY1 (3/10) (settings (gpr (3/10) 1)) fit_ml (1/1000) ltac:(lia) ltac:(lra) C D (patient_gpr 1 1 (3/10) 1)) as (N & W & HW & Hall).
  exists N. intros m Hm. rewrite Hall, Z by auto. intros E. injection E as E. destruct (HW 0%nat ltac:(lia)) as [Q _]. revert Q. unfold correlation_mt, lin_mt. cbn [seq map]. rewrite !Sum_S, !Sum_0. unfold oneX1, oneY1.
  rewrite E. rewrite norm2_1. cbn. rewrite Rabs_right; lra.
Qed.

(** *** the Lasso does not share between identical columns *)
Definition twinX : mat f64 := Mat 2 2 (map (map f64_of) [[1; 1]; [1; 1]]%Z).
Definition twiny : targets f64 := T1 (map f64_of [1; 1]%Z).
Definition twpr : params f64 := Params (flit ops64 1 2) (f0 ops64) 50 50 10 (flit ops64 1 1000000) 5 false false.
Definition apart (c z : f64) (r : res (result (list f64) (estimator_error f64))) : bool :=
  match r with Ret (Ok [a; b]) => flt ops64 c a && feq ops64 b z | _ => false end.
Lemma apart_ok c z r : apart c z r = true -> exists a b, r = Ret (Ok [a; b]) /\ flt ops64 c a = true /\ feq ops64 b z = true.
Proof.
  destruct r as [[[|a [|b [|]]]|]|]; unfold apart; intros H; try discriminate H. apply andb_true_iff in H as [H1 H2]. eauto.
Qed.
Lemma twins : apart (tenth 4) (f0 ops64) (fit_unchecked (lasso_check_ref ops64) (lasso_fit_dense ops64 srt64) twpr (Dataset twinX twiny)) = true.
Proof. vm_compute. reflexivity. Qed.
Lemma twins_refuted : (forall i, mget twinX i 0 = mget twinX i 1) /\
  exists a b, fit_unchecked (lasso_check_ref ops64) (lasso_fit_dense ops64 srt64) twpr (Dataset twinX twiny) = Ret (Ok [a; b]) /\ flt ops64 (tenth 4) a = true /\ feq ops64 b (f0 ops64) = true.
Proof. split; [|apply apart_ok, twins]. intros [|[|[|i]]]; reflexivity. Qed.
(** *** double precision, ratio one: whole runs *)
Definition rpr1 : params f64 := Params (tenth 1) (f1 ops64) 5 25 10 (flit ops64 1 1000000) 2 true false.
Definition agreeb (z : f64) (a b : res (result (list f64) (estimator_error f64))) : bool :=
  match a, b with Ret (Ok x), Ret (Ok y) => same x y && negb (same x (repeat z (length x))) | _, _ => false end.
Lemma agreeb_ok z a b : agreeb z a b = true -> a = b /\ exists x, a = Ret (Ok x) /\ x <> repeat z (length x).
Proof.
  destruct a as [[x|]|]; unfold agreeb; try discriminate. destruct b as [[y|]|]; try discriminate. intros H. apply andb_true_iff in H as [H1 H2]. apply same_eq in H1 as ->. split; auto. exists y. split; auto.
  intros E. rewrite <- E in H2. assert (S : same y y = true) by (unfold same; destruct (list_eq_dec sf_dec (map B2SF y) (map B2SF y)); auto). rewrite S in H2. discriminate.
Qed.
Lemma ratio_one_run : agreeb (f0 ops64) (fit_unchecked (elastic_net_check_ref ops64) (elastic_net_fit_dense ops64 srt64) rpr1 (Dataset rX ry)) (fit_unchecked (lasso_check_ref ops64) (lasso_fit_dense ops64 srt64) rpr1 (Dataset rX ry)) = true.
Proof. vm_compute. reflexivity. Qed.
Lemma one_ratio : 0 <= 1 <= 1. Proof. lra. Qed.
Lemma zero_ratio : 0 <= 0 <= 1. Proof. lra. Qed.
Lemma half_ratio : 0 <= 1/2 <= 1. Proof. lra. Qed.
Lemma tenth_fin : is_finite (tenth 1) = true. Proof. vm_compute. reflexivity. Qed.
