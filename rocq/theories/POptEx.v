(** Concrete instances for [PropOpt]. *)
From Coq Require Import List ZArith Bool Arith Reals Lra Lia.
From Verif Require Import Ops Arr MUtils MDatasets MDatafits MDatafitsMT MPenalties MBlockPenalties MCd MBcd MHyper MEstimators XR SpecPen VecR PBase RSum SpecLin SpecData SpecDatafit PDatafit PDataProps PDataEx SpecSolve PLaws PSubdiff PCalc SpecOpt SpecAccel PFitOpt PAccel.
Import ListNotations.
Open Scope R_scope.

Definition oy (i : nat) : R := INR i - 1.
Definition oY (i t : nat) : R := INR i - INR t.
(** acceleration every fourth epoch, at most 50 epochs *)
Definition opr (a s : R) : params xr := Params (Fin a) (Fin s) 50 50 3 (Fin (1/100)) 3 true false.
Definition fit_mcp m := estimator_sparse (dsort xops) (McpPen (1/10) 3) (set_max_iterations m (opr (1/10) 3)) (Dataset exC (T1 (xv 3 oy))).
Definition fit_log m := ok (solver_call (dsort xops) (dense_dm xops) (log_dense xops) (EnetPen (1/10) (1/2)) (solver_max_iterations m (settings (opr 0 0))) (Dataset (xm 3 3 (entry exE)) (T2 (xm 3 1 (fun i _ => oy i)))) (Logi [])).
Definition fit_mtl m := mt_estimator_dense (dsort xops) (MtLassoPen (1/10)) (set_max_iterations m (opr (1/10) 3)) (Dataset (xm 3 3 (entry exE)) (T2 (xm 3 2 oY))).
Definition fit_mtm m := ok (mt_solver_call (dsort xops) (sparse_dm xops) (qmt_sparse xops) (BlockMcpPen (1/10) 3) (solver_max_iterations m (settings (opr 0 0))) (Dataset exC (T2 (xm 3 2 oY))) (QuadMT [] (Mat 0 0 []))).

Lemma ex_fit_mcp : single_fit (dsort xops) 3 3 (entry exE) oy Squared (McpPen (1/10) 3) (settings (opr (1/10) 3)) fit_mcp.
Proof. apply (fit_sparse (dsort xops) 3 3 exE exC oy (McpPen (1/10) 3) (opr (1/10) 3)); [apply ex_csc|apply ex_csc|left; reflexivity|split; reflexivity]. Qed.
Lemma ex_fit_log : single_fit (dsort xops) 3 3 (entry exE) oy Logistic (EnetPen (1/10) (1/2)) (settings (opr 0 0)) fit_log.
Proof. apply (solve_log_dense (dsort xops) 3 3 (entry exE) oy (EnetPen (1/10) (1/2)) (settings (opr 0 0))); [right; reflexivity|simpl; lra]. Qed.
Lemma ex_fit_mtl : multi_fit (dsort xops) 3 3 2 (entry exE) oY (MtLassoPen (1/10)) (settings (opr (1/10) 3)) fit_mtl.
Proof. apply (mt_fit_dense (dsort xops) 3 3 2 (entry exE) oY (MtLassoPen (1/10)) (opr (1/10) 3)); [left; reflexivity|reflexivity|simpl; lra]. Qed.
Lemma ex_fit_mtm : multi_fit (dsort xops) 3 3 2 (entry exE) oY (BlockMcpPen (1/10) 3) (settings (opr 0 0)) fit_mtm.
Proof. apply (mt_solve_sparse (dsort xops) 3 3 2 exE exC oY (BlockMcpPen (1/10) 3) (settings (opr 0 0))); [apply ex_csc|apply ex_csc|left; reflexivity|simpl; lra]. Qed.

Lemma ex_entries : entry exE 0 0 = 1 /\ entry exE 1 0 = 0 /\ entry exE 2 0 = 3 /\ entry exE 0 1 = 0 /\ entry exE 1 1 = -2 /\ entry exE 2 1 = 0 /\ (forall i, entry exE i 2 = 0).
Proof. unfold entry, Rsum. simpl. repeat split; lra. Qed.
Lemma ex_steps (cmp : R -> R -> Prop) : cmp 1 10 -> cmp 1 4 -> gamma_ok cmp 3 Squared 3 3 (entry exE).
Proof.
  intros H1 H2 j Hj (i & Hi & Hx). destruct ex_entries as (E0 & E1 & E2 & E3 & E4 & E5 & E6).
  destruct j as [|[|[|j]]]; [| | |lia]; unfold curvature; rewrite ?Sum_S, Sum_0.
  - rewrite E0, E1, E2. replace (3 * ((0 + 1 ^ 2 + 0 ^ 2 + 3 ^ 2) / INR 3)) with 10 by (simpl; field). auto.
  - rewrite E3, E4, E5. replace (3 * ((0 + 0 ^ 2 + (-2) ^ 2 + 0 ^ 2) / INR 3)) with 4 by (simpl; field). auto.
  - rewrite E6 in Hx. lra.
Qed.
Lemma ex_ok : targets_ok Squared 3 oy /\ targets_ok Logistic 3 oy /\ steps_ok Rlt (McpPen (1/10) 3) Squared 3 3 (entry exE) /\
  steps_ok Rle (McpPen (1/10) 3) Squared 3 3 (entry exE) /\ steps_ok_mt Rle (BlockMcpPen (1/10) 3) 3 3 (entry exE).
Proof. repeat split; try (apply ex_steps; lra). exact (proj2 (proj2 (proj2 ex_target))). Qed.
Lemma ex_accepted : accepted fit_mcp /\ accepted fit_log /\ accepted fit_mtl.
Proof.
  assert (Hp : forall A (r : res A) e, ok r <> Ret (Err e)) by (intros A [r|] e; discriminate).
  assert (B : forall a s m, 0 <= a -> lasso_check_ref xops (set_max_iterations m (opr a s)) = Ok (set_max_iterations m (opr a s))).
  { intros a s m Ha. unfold lasso_check_ref, set_max_iterations, opr. cbn [p_alpha p_tolerance p_K p_ws_start_size fisneg xops xisneg Nat.leb].
    rewrite !(proj2 (Rltb_false _ _)) by lra. reflexivity. }
  split; [|split].
  - intros m e. unfold fit_mcp. cbn [estimator_sparse]. unfold fit_unchecked.
    replace (mcp_check_ref xops (set_max_iterations m (opr (1/10) 3))) with (@Ok _ (estimator_error xr) (set_max_iterations m (opr (1/10) 3))); [apply Hp|].
    unfold mcp_check_ref, set_max_iterations, opr. cbn [p_alpha p_shape p_tolerance p_K p_ws_start_size fisneg flt f1 xops xisneg xlt Nat.leb].
    rewrite !(proj2 (Rltb_false _ _)) by lra. reflexivity.
  - intros m e. unfold fit_log. apply Hp.
  - intros m e. unfold fit_mtl. cbn [mt_estimator_dense]. unfold fit_unchecked. change (mt_lasso_check_ref xops) with (lasso_check_ref xops). rewrite B by lra. apply Hp.
Qed.
Lemma calm_3_50 : calm_schedule true 3 50.
Proof.
  right. intros e He [[_ H]|H].
  - intros Q. pose proof (Nat.div_mod e 10 ltac:(lia)). pose proof (Nat.div_mod e 4 ltac:(lia)). lia.
  - assert (e = 49%nat) by lia. subst. discriminate.
Qed.
(** the defaults *)
Lemma calm_5_1000 : calm_schedule true 5 1000 /\ (forall p, (5 <= p)%nat -> accel_safe true 5 (Nat.min 10 p) 1000).
Proof.
  split.
  - right. intros e He [[_ H]|H].
    + intros Q. pose proof (Nat.div_mod e 10 ltac:(lia)). pose proof (Nat.div_mod e 6 ltac:(lia)). lia.
    + assert (e = 999%nat) by lia. subst. vm_compute. discriminate.
  - intros p Hp. right. left. lia.
Qed.
Lemma ex_settings a s : s_tolerance (settings (opr a s)) = Fin (1/100) /\ (1 <= s_ws_start_size (settings (opr a s)))%nat /\ (1 <= s_max_epochs (settings (opr a s)))%nat /\
  calm_schedule (s_use_acceleration (settings (opr a s))) (s_K (settings (opr a s))) (s_max_epochs (settings (opr a s))) /\
  accel_safe (s_use_acceleration (settings (opr a s))) (s_K (settings (opr a s))) (Nat.min (s_ws_start_size (settings (opr a s))) 3) (s_max_epochs (settings (opr a s))) /\
  accel_safe (s_use_acceleration (settings (opr a s))) (s_K (settings (opr a s))) (Nat.min (s_ws_start_size (settings (opr a s))) 3 * 2) (s_max_epochs (settings (opr a s))).
Proof.
  cbn [settings opr p_tolerance p_ws_start_size p_max_epochs p_use_acceleration p_K s_tolerance s_ws_start_size s_max_epochs s_use_acceleration s_K].
  split; [reflexivity|]. split; [lia|]. split; [lia|]. split; [apply calm_3_50|]. split; right; left; simpl; lia.
Qed.
(** the MCP fit settles at a model which is not the null model *)
Lemma ex_mcp_result : exists m w, (forall m', (m <= m')%nat -> fit_mcp m' = Ret (Ok (xv 3 w))) /\ stationary (1/100) (loss1 Squared 3 oy) 3 (entry exE) (pen1 (McpPen (1/10) 3)) w /\
  exists j, (j < 3)%nat /\ w j <> 0.
Proof.
  destruct (c27_single (dsort xops) xr_sort 3 3 ltac:(lia) _ _ _ _ _ _ ex_fit_mcp (proj1 ex_ok) (proj1 (proj2 (proj2 ex_ok))) (1/100)) as (N & w & Hst & Hall);
    try apply ex_settings; try apply ex_accepted; try apply ex_ok; [lra|].
  exists N, w. split; auto. split; auto.
  destruct (Req_dec (w 0%nat) 0) as [Z0|]; [|exists 0%nat; split; [lia|auto]].
  destruct (Req_dec (w 1%nat) 0) as [Z1|]; [|exists 1%nat; split; [lia|auto]].
  destruct (Req_dec (w 2%nat) 0) as [Z2|]; [|exists 2%nat; split; [lia|auto]].
  exfalso. assert (H0 : stationary (1/100) (loss1 Squared 3 oy) 3 (entry exE) (pen1 (McpPen (1/10) 3)) (fun _ => 0)).
  { eapply (stationary_ext 3 3 ltac:(lia)); [|intros j Hj|exact Hst]; [simpl; lra|]. destruct j as [|[|[|j]]]; [auto|auto|auto|lia]. }
  rewrite stationary_iff in H0 by (try lia; simpl; lra). specialize (H0 0%nat ltac:(lia)). revert H0. cbn [dist1 dloss1]. unfold r_mcp_score.
  destruct ex_entries as (E0 & E1 & E2 & _). rewrite Reqb_refl. unfold gq.
  rewrite (Sum_zero 3 (fun i => entry exE i 0 * lin 3 (entry exE) (fun _ => 0) i)) by (intros i Hi; unfold lin; rewrite Sum_zero by (intros; ring); ring).
  rewrite !Sum_S, Sum_0, E0, E1, E2. unfold oy. simpl INR. intros H0. revert H0.
  replace ((0 - (0 + 1 * (0 - 1) + 0 * (1 - 1) + 3 * (1 + 1 - 1))) / (1 + 1 + 1)) with (- (2/3)) by field.
  rewrite Rabs_Ropp, Rabs_right by lra. unfold Rmax. destruct (Rle_dec _ _); lra.
Qed.

(** *** an accepted extrapolation: one row, one column, [K = 1] *)
Definition aX : rmat := fun _ _ => 1.
Definition ads : dataset (mat xr) xr := Dataset (xm 1 1 aX) (T1 (xv 1 (fun _ => 2))).
Definition af := accel_call (dense_dm xops) (quad_dense xops) (LassoPen 0) ads (Quad [Fin 1] [Fin 2]).
Ltac feq1 := match goal with |- context [Reqb ?a ?b] => rewrite (proj2 (Reqb_false a b)) by lra end.
Lemma ex_accel : single_accel 1 1 aX (fun _ => 2) Squared (LassoPen 0) af.
Proof.
  apply (accel_quad_dense 1 1 aX (fun _ => 2) (LassoPen 0) (Quad [] [])); [left; reflexivity|simpl; lra|].
  cbn. feq1. unfold aX. repeat (f_equal; try field).
Qed.
Lemma ex_accel_accepted : af (xm 2 1 (fun _ _ => 2)) (xv 1 (fun _ => 0)) (xv 1 (fun _ => 0)) [0%nat] 1 1 false = Ret ([Fin 2], [Fin 2], Mat 2 1 [[Fin 2]; [Fin 0]]).
Proof.
  cbn. repeat feq1. cbn. replace (1 / (0 + (0 - 2) * (0 - 2))) with (1 / 4) by field. feq1. cbn. replace (0 + 2 * (1 / 4 / (0 + 1 / 4))) with 2 by field.
  cbn. repeat feq1. cbn. unfold aX. replace (0 + 1 * 2) with 2 by ring.
  rewrite (proj2 (Rltb_spec _ _)) by lra.
  reflexivity.
Qed.
