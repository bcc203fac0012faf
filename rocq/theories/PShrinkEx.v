(** Concrete instances for [PropShrink]: orthogonal columns, where the fits are known (C55). *)
From Coq Require Import List ZArith Bool Arith Reals Lra Lia.
From Verif Require Import Ops Arr MUtils MDatasets MDatafits MPenalties MCd MHyper MEstimators XR SpecPen VecR PBase RSum SpecLin SpecData PDatafit SpecSolve PLaws SpecOpt SpecNull PFitOpt PNullFit SpecOrth POrth POrthEx SpecOracle SpecPath PDescent POracle POracleEx SpecIncoh PIncoh PColsEx PIncohEx SpecShrink PShrink.
Import ListNotations.
Open Scope R_scope.

Definition fit_sh k m := ok (solver_call (dsort xops) (dense_dm xops) (quad_dense xops) k (solver_max_iterations m (settings kpr)) (Dataset (xm 2 3 orX) (T2 (xm 2 1 (fun i _ => ory i)))) (Quad [] [])).
Lemma sh_fit k : pen1_range k -> single_fit (dsort xops) 2 3 orX ory Squared k (settings kpr) (fit_sh k) /\ accepted (fit_sh k).
Proof.
  intros Hk. split; [apply (solve_quad_dense (dsort xops) 2 3 orX ory k (settings kpr)); [right; reflexivity|auto]|].
  assert (Hp : forall A (r : res A) e, ok r <> Ret (Err e)) by (intros A [r|] e; discriminate). intros m e. apply Hp.
Qed.
Lemma sh_patient : patient 3 1 (settings kpr) (1/100).
Proof. unfold patient. cbn. repeat split; try lra; try lia; left; reflexivity. Qed.
Lemma sh_steps : steps_ok Rlt (McpPen (1/2) 3) Squared 2 3 orX /\ steps_ok Rlt (LassoPen (1/2)) Squared 2 3 orX.
Proof.
  split; [|exact I]. intros j Hj (i & Hi & Hx). unfold curvature, Sum. unfold orX in *. destruct j as [|[|[|j]]]; simpl in *; try lra; lia.
Qed.
Lemma sh_range : pen1_range (McpPen (1/2) 3) /\ pen1_range (LassoPen (1/2)).
Proof. split; simpl; lra. Qed.
Lemma sh_not_zero k : pen1_range k -> slope k <= 1 -> ~ stationary (1/100) (loss1 Squared 2 ory) 3 orX (pen1 k) (fun _ => 0).
Proof.
  intros Hr Hs H. rewrite (stationary_iff 2 3 ltac:(lia)) in H by auto. specialize (H 0%nat ltac:(lia)). rewrite dist1_0 in H.
  replace (dloss1 2 3 Squared orX ory (fun _ => 0) 0) with (-2) in H by (cbn [dloss1]; unfold gq, lin, Sum; simpl; lra).
  rewrite Rabs_left in H by lra. pose proof (Rmax_r 0 (- (-2) - slope k)). lra.
Qed.
Lemma sh_result k : pen1_range k -> slope k <= 1 -> steps_ok Rlt k Squared 2 3 orX -> forall m, (1 <= m)%nat -> fit_sh k m = Ret (Ok (xv 3 (closed_form k 2 orX ory))).
Proof.
  intros Hr Hs Hst. destruct (orth_single (dsort xops) xr_sort 2 3 ltac:(lia) orX ory k (settings kpr) (fit_sh k) (1/100) (proj1 (sh_fit k Hr)) (proj2 (sh_fit k Hr)) eq_refl or_orth (steps_lt_le _ _ _ _ _ Hst) ltac:(cbn; lia) ltac:(cbn; lia) (or_introl eq_refl)) as [(C & _)|(_ & H)]; auto.
  exfalso. exact (sh_not_zero k Hr Hs C).
Qed.
Lemma sh_closed k v0 v1 : shrunk k 1 2 = v0 -> shrunk k 1 1 = v1 -> closed_form k 2 orX ory 0 = v0 /\ closed_form k 2 orX ory 1 = v1 /\ closed_form k 2 orX ory 2 = 0.
Proof.
  intros E0 E1. assert (E : forall j r L w, Sum 2 (fun i => orX i j * ory i) / INR 2 = r -> Sum 2 (fun i => orX i j ^ 2) / INR 2 = L -> r / Rabs r * shrunk k L (Rabs r) = w -> closed_form k 2 orX ory j = w).
  { intros j r L w F1 F2 F3. unfold closed_form. cbv zeta. rewrite F1, F2. exact F3. }
  split; [|split].
  - apply (E _ 2 1); [unfold Sum; simpl; lra|unfold Sum; simpl; lra|]. rewrite Rabs_right, E0 by lra. field.
  - apply (E _ 1 1); [unfold Sum; simpl; lra|unfold Sum; simpl; lra|]. rewrite Rabs_right, E1 by lra. field.
  - apply (E _ 0 0); [unfold Sum; simpl; lra|unfold Sum; simpl; lra|]. unfold Rdiv. ring.
Qed.
(** MCP: the first coefficient is not shrunk, the second one is, with slope 1/4 *)
Lemma sh_mcp : settles 3 (fun w => w 0%nat = 2 /\ w 1%nat = 3/4 /\ pull (McpPen (1/2) 3) (w 0%nat) = 0 /\ pull (McpPen (1/2) 3) (w 1%nat) = 1/4) (fit_sh (McpPen (1/2) 3)).
Proof.
  exists 1%nat, (closed_form (McpPen (1/2) 3) 2 orX ory). split; [|apply sh_result; [apply sh_range|simpl; lra|apply sh_steps]].
  destruct (sh_closed (McpPen (1/2) 3) 2 (3/4)) as (V0 & V1 & _); [cbn [shrunk]; destruct (Rle_dec _ _); lra|cbn [shrunk]; destruct (Rle_dec _ _); [rewrite Rmax_right by lra; lra|lra]|].
  rewrite V0, V1. cbn [pull]. rewrite !Rabs_right by lra. rewrite Rmax_left by lra. rewrite Rmax_right by lra. repeat split; lra.
Qed.
(** a smaller [alpha]: no shrinkage *)
Lemma sh_unbiased : settles 3 (fun w => (forall j, (j < 3)%nat -> w j = 0 \/ 1/10 * 3 <= Rabs (w j)) /\ w 0%nat = 2) (fit_sh (McpPen (1/10) 3)).
Proof.
  exists 1%nat, (closed_form (McpPen (1/10) 3) 2 orX ory). split; [|apply sh_result; [simpl; lra|simpl; lra|exact (proj1 sh_steps)]].
  destruct (sh_closed (McpPen (1/10) 3) 2 1) as (V0 & V1 & V2); [cbn [shrunk]; destruct (Rle_dec _ _); lra|cbn [shrunk]; destruct (Rle_dec _ _); lra|].
  split; auto. intros j Hj. destruct j as [|[|[|j]]]; [| | |lia].
  - right. rewrite V0, Rabs_right; lra.
  - right. rewrite V1, Rabs_right; lra.
  - left. exact V2.
Qed.
(** Lasso: both are; rescaling the model lowers the loss *)
Lemma sh_lasso : settles 3 (fun w => 0 < Sum 3 (fun j => (pull (LassoPen (1/2)) (w j) - 1/100) * Rabs (w j)) /\ 0 < msp 2 3 orX w) (fit_sh (LassoPen (1/2))).
Proof.
  exists 1%nat, (closed_form (LassoPen (1/2)) 2 orX ory). split; [|apply sh_result; [apply sh_range|simpl; lra|apply sh_steps]].
  destruct (sh_closed (LassoPen (1/2)) (3/2) (1/2)) as (V0 & V1 & V2); [cbn [shrunk]; rewrite ?Rmax_right by lra; lra|cbn [shrunk]; rewrite ?Rmax_right by lra; lra|].
  split.
  - rewrite !Sum_S, Sum_0, V0, V1, V2. cbn [pull]. rewrite Rabs_R0, !Rabs_right by lra. lra.
  - unfold msp, lin. rewrite !Sum_S, !Sum_0, V0, V1, V2. unfold orX. rewrite INR_IZR_INZ. simpl. lra.
Qed.
(** two tasks: the design of C107 *)
Lemma sh_patient_mt : patient 2 2 (settings kpr) (1/100).
Proof. unfold patient. cbn. repeat split; try lra; try lia; left; reflexivity. Qed.
Lemma sh_multi : settles_mt 2 2 (fun W => 0 < (1/10 - 1/100) * Sum 2 (fun j => norm2 (map (W j) (seq 0 2))) /\ 0 < msp_mt 2 2 2 inX W) fit_in_mt.
Proof.
  destruct in_settings as (Et & H1 & H2 & H3 & H4). destruct in_data_mt as (D1 & D2 & D3 & D4 & D5 & D6).
  destruct (c107_multi (dsort xops) xr_sort 2 2 ltac:(lia) 2 inX inY inB oE (1/10) _ fit_in_mt (1/100) oS inq (1/2) (1/400) in_fit_mt (proj2 in_accepted) Et ltac:(lra) H1 H2 H3 (H4 _) D1 D2 in_incoherent D3 in_exact) as (N & W & (Q1 & Q2) & Hall).
  exists N, W. split; auto. destruct (proj2 (Q2 (1/2) (1/200) D4 ltac:(lra) ltac:(lra) D5 D6 0%nat ltac:(lia)) eq_refl) as (t & Ht & Hne).
  assert (P : 0 < W 0%nat 0%nat ^ 2 + W 0%nat 1%nat ^ 2) by (destruct t as [|[|t]]; [| |lia]; [pose proof (pow2_ge_0 (W 0%nat 1%nat))|pose proof (pow2_ge_0 (W 0%nat 0%nat))]; nra).
  split.
  - apply Rmult_lt_0_compat; [lra|]. rewrite !Sum_S, Sum_0. pose proof (norm2_pos (map (W 1%nat) (seq 0 2))). pose proof (norm2_tab 2 (W 0%nat)) as E. rewrite !Sum_S, Sum_0 in E. unfold tab in E. pose proof (norm2_pos (map (W 0%nat) (seq 0 2))).
    set (m := norm2 (map (W 0%nat) (seq 0 2))) in *. assert (0 < m) by nra. lra.
  - unfold msp_mt, lin_mt. rewrite INR_IZR_INZ, !Sum_S, !Sum_0, (Q1 1%nat 0%nat), (Q1 1%nat 1%nat) by auto. unfold inX. simpl IZR. nra.
Qed.
