(** Concrete instances meeting the hypotheses of [PropNull]. *)
From Coq Require Import List ZArith Bool Arith Lia Reals Lra.
From Flocq Require Import Core BinarySingleNaN.
From Verif Require Import Ops Arr MUtils MDatasets MDatafits MDatafitsMT MPenalties MBlockPenalties MCd MBcd MHyper MEstimators XR IEEE VecR RSum PBase SpecPen SpecLin SpecData SpecDatafit SpecSolve SpecOpt PDatafit PDataProps PDataEx PLaws PRuns PRunsEx PSymEx POptEx PFitOpt PNullFit SpecNull.
Import ListNotations.

Definition nan64 : f64 := B754_nan.
(** one entry of the design matrix is NaN; the second target below as well *)
Definition nullX : mat f64 := Mat 2 2 [[f1 ops64; nan64]; [flit ops64 1 3; f1 ops64]].
Definition nully : list f64 := [flit ops64 1 10; flit ops64 7 10].
Definition nullpr : params f64 := Params (f1 ops64) (f1 ops64) 50 1000 10 (flit ops64 1 10000) 5 true false.
Lemma null_ex : shaped 2 2 nullX /\ target1_wf 2 (T1 nully) /\ single_target (f0 ops64) (T1 nully) = Ret nully /\
  (exists am, compute_alpha_max ops64 nullX nully = Ret am /\ fle ops64 am (p_alpha nullpr) = true /\ fle ops64 am (fmul ops64 (p_alpha nullpr) (p_shape nullpr)) = true /\ flt ops64 (f0 ops64) am = true) /\
  fle ops64 (f0 ops64) (p_tolerance nullpr) = true /\ lasso_check_ref ops64 nullpr = Ok nullpr /\ elastic_net_check_ref ops64 nullpr = Ok nullpr.
Proof.
  split; [repeat split; repeat constructor|]. split; [reflexivity|]. split; [reflexivity|]. split.
  - assert (E : match compute_alpha_max ops64 nullX nully with Ret am => fle ops64 am (p_alpha nullpr) && fle ops64 am (fmul ops64 (p_alpha nullpr) (p_shape nullpr)) && flt ops64 (f0 ops64) am | _ => false end = true) by (vm_compute; reflexivity).
    destruct (compute_alpha_max ops64 nullX nully) as [am|]; [|discriminate]. exists am. apply andb_true_iff in E as [E E3]. apply andb_true_iff in E as [E1 E2]. auto.
  - split; [vm_compute; reflexivity|]. assert (E : forall c : params f64 -> vres, match c nullpr with Ok _ => true | _ => false end = true -> (forall q, c nullpr = Ok q -> q = nullpr) -> c nullpr = Ok nullpr).
    { intros c H HQ. destruct (c nullpr) as [q|]; [|discriminate]. rewrite (HQ q eq_refl). auto. }
    destruct (chk_same ops64 nullpr) as (C1 & _ & _ & _ & C5 & _). split; apply E; auto; vm_compute; reflexivity.
Qed.
Definition nany : list f64 := [f1 ops64; nan64].
Definition nanY : mat f64 := Mat 2 3 [[f1 ops64; f1 ops64; flit ops64 5 1]; [f1 ops64; nan64; f0 ops64]].
Lemma nan_ex : shaped 2 2 nullX /\ target1_wf 2 (T1 nany) /\ single_target (f0 ops64) (T1 nany) = Ret nany /\ (exists x, In x nany /\ is_nan x = true) /\
  target_wf 2 3 (T2 nanY) /\ (exists r x, nth_error (mrows (as_multi_tasks (T2 nanY))) 1 = Some r /\ nth_error r 1 = Some x /\ is_nan x = true).
Proof.
  split; [repeat split; repeat constructor|]. split; [reflexivity|]. split; [reflexivity|]. split; [exists (nan64); split; [simpl; auto|reflexivity]|].
  split; [repeat split; repeat constructor|]. exists [f1 ops64; nan64; f0 ops64], (nan64). repeat split.
Qed.

(** *** exact arithmetic: the data of [POptEx], largest correlation 2/3 *)
Local Open Scope R_scope.
Lemma am_ex : reported_alpha_max 3 3 (entry exE) oy (2/3).
Proof.
  right. exists exE, exC. split; [apply ex_csc|]. split; [reflexivity|]. rewrite (alpha_max_sparse 3 3 exE exC oy ltac:(lia) (proj1 ex_csc)). do 2 f_equal.
  destruct ex_entries as (E0 & E1 & E2 & E3 & E4 & E5 & E6). unfold maxabs, xty. cbn [seq map fold_left]. rewrite !Sum_S, !Sum_0, E0, E1, E2, E3, E4, E5, !E6. unfold oy. cbn [INR].
  replace (0 + 1 * (0 - 1) + 0 * (1 - 1) + 3 * (1 + 1 - 1)) with 2 by ring. replace (0 + 0 * (0 - 1) + -2 * (1 - 1) + 0 * (1 + 1 - 1)) with 0 by ring. replace (0 + 0 * (0 - 1) + 0 * (1 - 1) + 0 * (1 + 1 - 1)) with 0 by ring.
  rewrite Rabs_R0, (Rabs_right 2) by lra. rewrite (Rmax_right 0 2), (Rmax_left 2 0), (Rmax_left 2 0) by lra. field.
Qed.
Definition fit_mcp1 m := estimator_sparse (dsort xops) (McpPen 1 3) (set_max_iterations m (opr 1 3)) (Dataset exC (T1 (xv 3 oy))).
Lemma fit_mcp1_ex : single_fit (dsort xops) 3 3 (entry exE) oy Squared (McpPen 1 3) (settings (opr 1 3)) fit_mcp1 /\ accepted fit_mcp1 /\ 2/3 <= slope (McpPen 1 3) + 1/100.
Proof.
  split; [|split].
  - apply (fit_sparse (dsort xops) 3 3 exE exC oy (McpPen 1 3) (opr 1 3)); [apply ex_csc|apply ex_csc|left; reflexivity|split; reflexivity].
  - intros m e. unfold fit_mcp1. cbn [estimator_sparse]. unfold fit_unchecked.
    replace (mcp_check_ref xops (set_max_iterations m (opr 1 3))) with (@Ok _ (estimator_error xr) (set_max_iterations m (opr 1 3))).
    + destruct (mcp_fit_sparse _ _ _ _); discriminate.
    + unfold mcp_check_ref, set_max_iterations, opr. cbn [p_alpha p_shape p_tolerance p_K p_ws_start_size fisneg flt f1 xops xisneg xlt Nat.leb]. rewrite !(proj2 (Rltb_false _ _)) by lra. reflexivity.
  - cbn. lra.
Qed.
Lemma mcp_slope_ex : slope (McpPen (1/10) 3) + 1/100 < 2/3.
Proof. cbn. lra. Qed.
(** one sample, one feature, one task: correlation 1/2, elastic net with weight 3/10 *)
Definition oneX1 : rmat := fun _ _ => 1.
Definition oneY1 : rmat := fun _ _ => 1/2.
Lemma am_mt_ex : reported_alpha_max_mt 1 1 1 oneX1 oneY1 (1/2).
Proof.
  unfold reported_alpha_max_mt. rewrite alpha_max_mtl by lia. do 2 f_equal. unfold maxabs, xty_norm. cbn [seq map fold_left]. rewrite !Sum_S, !Sum_0. unfold oneX1, oneY1.
  replace (0 + (0 + 1 * (1 / 2)) ^ 2) with ((1/2) * (1/2)) by field. rewrite sqrt_square by lra. rewrite Rabs_right, Rmax_right by lra. cbn. field.
Qed.
Definition fit_en m := mt_estimator_dense (dsort xops) (MtEnetPen (3/10) 1) (set_max_iterations m (opr (3/10) 1)) (Dataset (xm 1 1 oneX1) (T2 (xm 1 1 oneY1))).
Lemma fit_en_ex : multi_fit (dsort xops) 1 1 1 oneX1 oneY1 (MtEnetPen (3/10) 1) (settings (opr (3/10) 1)) fit_en /\ accepted fit_en.
Proof.
  split.
  - apply (mt_fit_dense (dsort xops) 1 1 1 oneX1 oneY1 (MtEnetPen (3/10) 1) (opr (3/10) 1)); [left; reflexivity|split; reflexivity|simpl; lra].
  - intros m e. unfold fit_en. cbn [mt_estimator_dense]. unfold fit_unchecked.
    replace (mt_elastic_net_check_ref xops (set_max_iterations m (opr (3/10) 1))) with (@Ok _ (estimator_error xr) (set_max_iterations m (opr (3/10) 1))).
    + destruct (mt_elastic_net_fit_dense _ _ _ _); discriminate.
    + unfold mt_elastic_net_check_ref, set_max_iterations, opr. cbn [p_alpha p_shape p_tolerance p_K p_ws_start_size fisneg flt f1 f0 xops xisneg xlt Nat.leb]. rewrite !(proj2 (Rltb_false _ _)) by lra. reflexivity.
Qed.
Lemma en_small : forall j, (j < 1)%nat -> (xty_norm 1 1 oneX1 oneY1 j / INR 1) ^ 2 <= 3/10 * 1 + 1/100.
Proof.
  intros j _. unfold xty_norm. rewrite !Sum_S, !Sum_0. unfold oneX1, oneY1. replace (0 + (0 + 1 * (1 / 2)) ^ 2) with ((1/2) * (1/2)) by field. rewrite sqrt_square by lra. cbn. lra.
Qed.
Lemma en_slope_ex : slope_mt (MtEnetPen (3/10) 1) < 1/2.
Proof. cbn. lra. Qed.
Lemma mcp_progress_ex : fit_mcp 0 = Ret (Ok (xv 3 (fun _ => 0))) /\ ~ stationary (1/100) (loss1 Squared 3 oy) 3 (entry exE) (pen1 (McpPen (1/10) 3)) (fun _ => 0) /\
  (exists m v, (0 < m)%nat /\ fit_mcp m = Ret (Ok v)).
Proof.
  split; [|split].
  - apply (fit_zero (dsort xops) xr_sort 3 3 ltac:(lia) (entry exE) oy (McpPen (1/10) 3) (settings (opr (1/10) 3)) fit_mcp ex_fit_mcp (proj1 ex_accepted)).
  - rewrite (zero_iff 3 3 ltac:(lia) (entry exE) oy (McpPen (1/10) 3) (2/3) am_ex); cbn; lra.
  - destruct ex_mcp_result as (m & w & H & _). exists (S m), (xv 3 w). split; [lia|]. apply H. lia.
Qed.
Lemma reduces64 : reduces 53 1024 Hprec64 Hmax64 libm64.
Proof. apply seq_reduces. Qed.
