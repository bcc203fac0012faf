(** Concrete instances for [PropClosed]. *)
From Coq Require Import List ZArith Bool Arith Reals Lra Lia.
From Verif Require Import Ops Arr MUtils MDatasets MDatafits MDatafitsMT MPenalties MBlockPenalties MCd MBcd MHyper MEstimators XR SpecPen VecR PBase RSum SpecLin SpecData SpecDatafit PDatafit PDataProps PDataEx SpecSolve PLaws SpecOpt SpecNull PFitOpt PNullFit SpecOrth POrth.
Import ListNotations.
Open Scope R_scope.

(** two orthogonal columns, a zero column *)
Definition orX : rmat := fun i j => match j with 0%nat => 1 | 1%nat => match i with 0%nat => 1 | _ => -1 end | _ => 0 end.
Definition ory : nat -> R := fun i => match i with 0%nat => 3 | _ => 1 end.
Definition orpr : params xr := Params (Fin (1/2)) (Fin 3) 50 7 3 (Fin (1/100)) 2 true false.
Definition fit_or m := estimator_dense (dsort xops) (McpPen (1/2) 3) (set_max_iterations m orpr) (Dataset (xm 2 3 orX) (T1 (xv 2 ory))).
Definition orY : rmat := fun i t => ory i * match t with 0%nat => 3/5 | _ => 4/5 end.
Definition fit_orT m := ok (mt_solver_call (dsort xops) (dense_dm xops) (qmt_dense xops) (BlockMcpPen (1/2) 3) (solver_max_iterations m (settings orpr)) (Dataset (xm 2 3 orX) (T2 (xm 2 2 orY))) (QuadMT [] (Mat 0 0 []))).
Lemma or_orth : orthogonal 2 3 orX.
Proof. intros j k Hj Hk Hne. unfold orX. destruct j as [|[|[|j]]], k as [|[|[|k]]]; try lia; unfold Sum; simpl; lra. Qed.
Lemma or_gamma : gamma_ok Rle 3 Squared 2 3 orX.
Proof.
  intros j Hj (i & Hi & Hx). unfold curvature, Sum. unfold orX in *. destruct j as [|[|[|j]]]; simpl in *; try lra; lia.
Qed.
Lemma or_settings : (3 <= s_ws_start_size (settings orpr))%nat /\ (1 <= s_max_epochs (settings orpr))%nat /\
  accel_safe (s_use_acceleration (settings orpr)) (s_K (settings orpr)) 3 (s_max_epochs (settings orpr)) /\ accel_safe (s_use_acceleration (settings orpr)) (s_K (settings orpr)) (3 * 2) (s_max_epochs (settings orpr)) /\
  s_tolerance (settings orpr) = Fin (1/100).
Proof. cbn [settings orpr p_tolerance p_ws_start_size p_max_epochs p_use_acceleration p_K s_tolerance s_ws_start_size s_max_epochs s_use_acceleration s_K]. repeat split; try lia; right; left; lia. Qed.
Lemma ex_fit_or : single_fit (dsort xops) 2 3 orX ory Squared (McpPen (1/2) 3) (settings orpr) fit_or /\ accepted fit_or.
Proof.
  split; [apply (fit_dense (dsort xops) 2 3 orX ory (McpPen (1/2) 3) orpr (T1 (xv 2 ory))); [left; reflexivity|split; reflexivity]|].
  intros m e. unfold fit_or, estimator_dense, fit_unchecked, mcp_check_ref, set_max_iterations, orpr. cbn [p_alpha p_shape p_tolerance p_K p_ws_start_size fisneg flt f1 f0 xops xisneg xlt fle xle Nat.eqb].
  rewrite ?(proj2 (Rltb_false _ _)) by lra. rewrite ?(proj2 (Rleb_false _ _)) by lra. cbn [Nat.leb]. match goal with |- bind ?r _ <> _ => destruct r; discriminate end.
Qed.
Lemma ex_fit_orT : multi_fit (dsort xops) 2 3 2 orX orY (BlockMcpPen (1/2) 3) (settings orpr) fit_orT /\ accepted fit_orT.
Proof.
  split; [apply (mt_solve_dense (dsort xops) 2 3 2 orX orY (BlockMcpPen (1/2) 3) (settings orpr) (QuadMT [] (Mat 0 0 [])) (T2 (xm 2 2 orY))); [left; reflexivity|simpl; lra]|].
  intros m e. unfold fit_orT. destruct (mt_solver_call _ _ _ _ _ _ _); discriminate.
Qed.
Lemma or_values : map (closed_form (McpPen (1/2) 3) 2 orX ory) [0;1;2]%nat = [2; 3/4; 0].
Proof.
  assert (E : forall j r L w, Sum 2 (fun i => orX i j * ory i) / INR 2 = r -> Sum 2 (fun i => orX i j ^ 2) / INR 2 = L -> r / Rabs r * shrunk (McpPen (1/2) 3) L (Rabs r) = w -> closed_form (McpPen (1/2) 3) 2 orX ory j = w).
  { intros j r L w E1 E2 E3. unfold closed_form. cbv zeta. rewrite E1, E2. exact E3. }
  cbn [map]. f_equal; [|f_equal; [|f_equal]].
  - apply (E _ 2 1); [unfold Sum; simpl; lra|unfold Sum; simpl; lra|]. rewrite Rabs_right by lra. cbn [shrunk]. destruct (Rle_dec _ _); lra.
  - apply (E _ 1 1); [unfold Sum; simpl; lra|unfold Sum; simpl; lra|]. rewrite Rabs_right by lra. cbn [shrunk]. destruct (Rle_dec _ _); [|lra]. rewrite Rmax_right by lra. lra.
  - apply (E _ 0 0); [unfold Sum; simpl; lra|unfold Sum; simpl; lra|]. unfold Rdiv. ring.
Qed.
Lemma or_not_zero : ~ stationary (1/100) (loss1 Squared 2 ory) 3 orX (pen1 (McpPen (1/2) 3)) (fun _ => 0).
Proof.
  intros H. rewrite (stationary_iff 2 3 ltac:(lia)) in H by (simpl; lra). specialize (H 0%nat ltac:(lia)). rewrite dist1_0 in H. cbn [slope] in H.
  replace (dloss1 2 3 Squared orX ory (fun _ => 0) 0) with (-2) in H by (cbn [dloss1]; unfold gq, lin, Sum; simpl; lra).
  rewrite Rabs_left in H by lra. pose proof (Rmax_r 0 (- (-2) - 1/2)). lra.
Qed.
Lemma or_norm j : norm2 (map (fun t => Sum 2 (fun i => orX i j * orY i t) / INR 2) (seq 0 2)) = Rabs (Sum 2 (fun i => orX i j * ory i) / INR 2).
Proof.
  set (r := Sum 2 (fun i => orX i j * ory i) / INR 2). replace (map (fun t => Sum 2 (fun i => orX i j * orY i t) / INR 2) (seq 0 2)) with (vscale r [3/5; 4/5]).
  - rewrite norm2_scale. replace (norm2 [3/5; 4/5]) with 1; [ring|]. unfold norm2. replace (dotp [3/5; 4/5] [3/5; 4/5]) with 1; [symmetry; apply sqrt_1|]. unfold dotp. simpl. field.
  - unfold vscale, r, orY, Sum. simpl. f_equal; [field|f_equal; field].
Qed.
Lemma or_values_mt : map (closed_form_mt (BlockMcpPen (1/2) 3) 2 2 orX orY 1) [0;1]%nat = [9/20; 3/5].
Proof.
  assert (E : forall t, closed_form_mt (BlockMcpPen (1/2) 3) 2 2 orX orY 1 t = Sum 2 (fun i => orX i 1%nat * orY i t) / INR 2 * (3/4)).
  { intros t. unfold closed_form_mt. cbv zeta. rewrite or_norm. replace (Sum 2 (fun i => orX i 1%nat * ory i) / INR 2) with 1 by (unfold Sum; simpl; lra).
    replace (Sum 2 (fun i => orX i 1%nat ^ 2) / INR 2) with 1 by (unfold Sum; simpl; lra). rewrite Rabs_right by lra. cbn [of_norm shrunk]. destruct (Rle_dec _ _); [|lra]. rewrite Rmax_right by lra. lra. }
  cbn [map]. rewrite !E. unfold Sum, orY. simpl. f_equal; [lra|f_equal; lra].
Qed.
