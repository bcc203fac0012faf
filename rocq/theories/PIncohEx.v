(** Concrete instances for [PropIncoh]: an irrelevant column half explained by the relevant one. *)
From Coq Require Import List ZArith Bool Arith Reals Lra Lia.
From Verif Require Import Ops Arr MUtils MDatasets MDatafits MDatafitsMT MPenalties MCd MHyper MEstimators XR SpecPen VecR PBase RSum SpecLin SpecData SpecSolve PLaws PDescent SpecOpt PFitOpt SpecOracle POracle SpecIncoh PIncoh POptEx POracleEx PColsEx.
Import ListNotations.
Open Scope R_scope.

Definition inX : rmat := fun i j => match i, j with 0%nat, 0%nat => 1 | 1%nat, 0%nat => 1 | 0%nat, 1%nat => 1 | _, _ => 0 end.
Definition inb (j : nat) : R := 2 * ob j.
Definition iny (i : nat) : R := lin 2 inX inb i + oe i.
Definition inB (j t : nat) : R := inb j.
Definition inY (i t : nat) : R := lin_mt 2 inX inB i t + oE i t.
Definition inq : rmat := fun _ _ => 1/2.
Definition fit_in m := ok (solver_call (dsort xops) (dense_dm xops) (quad_dense xops) (LassoPen (1/10)) (solver_max_iterations m (settings kpr)) (Dataset (xm 2 2 inX) (T2 (xm 2 1 (fun i _ => iny i)))) (Quad [] [])).
Definition fit_in_mt m := ok (mt_solver_call (dsort xops) (dense_dm xops) (qmt_dense xops) (MtLassoPen (1/10)) (solver_max_iterations m (settings kpr)) (Dataset (xm 2 2 inX) (T2 (xm 2 2 inY))) (quadratic_mt_new xops)).
Lemma in_fit : single_fit (dsort xops) 2 2 inX iny Squared (LassoPen (1/10)) (settings kpr) fit_in.
Proof. apply (solve_quad_dense (dsort xops) 2 2 inX iny (LassoPen (1/10)) (settings kpr)); [right; reflexivity|simpl; lra]. Qed.
Lemma in_fit_mt : multi_fit (dsort xops) 2 2 2 inX inY (MtLassoPen (1/10)) (settings kpr) fit_in_mt.
Proof. apply (mt_solve_dense (dsort xops) 2 2 2 inX inY (MtLassoPen (1/10)) (settings kpr)); [left; reflexivity|simpl; lra]. Qed.
Lemma in_accepted : accepted fit_in /\ accepted fit_in_mt.
Proof. assert (Hp : forall A (r : res A) e, ok r <> Ret (Err e)) by (intros A [r|] e; discriminate). split; intros m e; apply Hp. Qed.
Lemma in_settings : let s := settings kpr in s_tolerance s = Fin (1/100) /\ (1 <= s_ws_start_size s)%nat /\ (1 <= s_max_epochs s)%nat /\
  calm_schedule (s_use_acceleration s) (s_K s) (s_max_epochs s) /\ forall d, accel_safe (s_use_acceleration s) (s_K s) d (s_max_epochs s).
Proof. cbn. repeat split; try lia; try (left; reflexivity); intros; left; reflexivity. Qed.
Lemma INR2 : INR 2 = 2. Proof. rewrite INR_IZR_INZ. reflexivity. Qed.
Lemma in_left i : leftover 2 inX oS inq i 1 = match i with 0%nat => 1/2 | 1%nat => -1/2 | _ => 0 end.
Proof. unfold leftover, sum_in. rewrite !Sum_S, Sum_0. unfold oS, inq, inX. cbn [Nat.eqb]. destruct i as [|[|i]]; lra. Qed.
Lemma in_incoherent : incoherent 2 2 inX oS inq (1/2).
Proof.
  split; [lra|]. intros j Hj Sj. assert (j = 1)%nat as -> by (destruct j as [|[|j]]; [discriminate|auto|lia]). split.
  - unfold sum_in. rewrite !Sum_S, Sum_0. unfold oS, inq. cbn [Nat.eqb]. rewrite Rabs_pos_eq by lra. lra.
  - intros k Hk Sk. assert (k = 0)%nat as -> by (destruct k as [|k]; [auto|discriminate]). rewrite !Sum_S, Sum_0, !in_left. unfold inX. lra.
Qed.
Lemma in_corr j : (j < 2)%nat -> Rabs (Sum 2 (fun i => inX i j * oe i) / INR 2) <= 1 / 200.
Proof. intros Hj. rewrite INR2, !Sum_S, Sum_0. unfold inX, oe. cbn [Nat.eqb]. destruct j as [|[|j]]; [| |lia]; apply Rabs_le; lra. Qed.
Lemma in_data : generated 2 2 inX iny inb oe /\ support_in 2 oS inb /\ noise_outside 2 2 inX oS inq oe (1/400) /\ noise_level 2 2 inX oe (1/200) /\
  restricted_eigenvalue 2 2 inX oS (1/2) /\ forall j, (j < 2)%nat -> oS j = true -> 6 * (1/10) * size_of 2 oS < 1/2 * Rabs (inb j).
Proof.
  split; [intros i _; reflexivity|]. split; [intros j _; unfold oS, inb, ob; intros ->; ring|]. split; [split; [lra|]|].
  { intros j Hj Sj. assert (j = 1)%nat as -> by (destruct j as [|[|j]]; [discriminate|auto|lia]). rewrite INR2, !Sum_S, Sum_0, !in_left. unfold oe. cbn [Nat.eqb]. apply Rabs_le; lra. }
  split; [split; [lra|exact in_corr]|]. split.
  - intros d _. unfold sum_in, msp, lin. rewrite INR2, !Sum_S, !Sum_0. unfold oS, inX. cbn [Nat.eqb]. pose proof (pow2_ge_0 (d 0%nat + d 1%nat)). nra.
  - intros j Hj Sj. assert (j = 0)%nat as -> by (destruct j as [|j]; [auto|discriminate]). change (size_of 2 oS) with 1. unfold inb, ob. cbn [Nat.eqb]. rewrite Rabs_pos_eq; lra.
Qed.
Lemma one_task_norm f : norm2 (map (fun t => if Nat.eqb t 0 then f else 0) (seq 0 2)) = Rabs f.
Proof.
  cbn [seq map Nat.eqb]. pose proof (norm2_tab 2 (fun t => if Nat.eqb t 0 then f else 0)) as Q. rewrite !Sum_S, Sum_0 in Q. unfold tab in Q. cbn [seq map Nat.eqb] in Q.
  apply Rsqr_inj; [apply norm2_pos|apply Rabs_pos|]. rewrite <- Rsqr_abs, !Rsqr_pow2, Q. ring.
Qed.
Lemma in_data_mt : generated_mt 2 2 2 inX inY inB oE /\ support_in_mt 2 2 oS inB /\ noise_outside_mt 2 2 2 inX oS inq oE (1/400) /\ noise_level_mt 2 2 2 inX oE (1/200) /\
  restricted_eigenvalue_mt 2 2 2 inX oS (1/2) /\ forall j, (j < 2)%nat -> oS j = true -> 6 * (1/10) * size_of 2 oS < 1/2 * norm2 (map (inB j) (seq 0 2)).
Proof.
  assert (K : forall g : nat -> R, map (fun t => Sum 2 (fun i => g i * oE i t) / INR 2) (seq 0 2) = map (fun t => if Nat.eqb t 0 then Sum 2 (fun i => g i * oe i) / INR 2 else 0) (seq 0 2)).
  { intros g. apply map_ext. intros t. unfold oE. destruct (Nat.eqb t 0); auto. rewrite Sum_zero by (intros; ring). unfold Rdiv. ring. }
  split; [intros i t _ _; reflexivity|]. split; [intros j t _ _; unfold oS, inB, inb, ob; intros ->; ring|].
  split; [split; [lra|]; intros j Hj Sj; rewrite K, one_task_norm; apply in_data; auto|]. split; [split; [lra|]; intros j Hj; rewrite K, one_task_norm; apply in_corr; auto|]. split.
  - intros D r _. unfold sum_in, msp_mt, lin_mt. rewrite INR2, !Sum_S, !Sum_0. unfold oS. cbn [Nat.eqb]. unfold r. change (map (D 0%nat) (seq 0 2)) with (tab 2 (D 0%nat)). rewrite norm2_tab, !Sum_S, !Sum_0. unfold inX.
    pose proof (pow2_ge_0 (D 0%nat 0%nat + D 1%nat 0%nat)). pose proof (pow2_ge_0 (D 0%nat 1%nat + D 1%nat 1%nat)). nra.
  - intros j Hj Sj. assert (j = 0)%nat as -> by (destruct j as [|j]; [auto|discriminate]). change (size_of 2 oS) with 1. unfold inB, inb, ob. cbn [Nat.eqb]. change (map (fun _ => 2 * 1) (seq 0 2)) with (tab 2 (fun _ => 2 * 1)).
    pose proof (norm2_tab 2 (fun _ => 2 * 1)) as Q. rewrite !Sum_S, Sum_0 in Q. pose proof (norm2_pos (tab 2 (fun _ => 2 * 1))). nra.
Qed.
Lemma in_exact : 1/2 * (1/10 + 1/100) + 1/400 < 1/10 - 1/100. Proof. lra. Qed.
(** what the theorem says here: exactly the relevant column is selected *)
Lemma in_recovers : settles 2 (fun w => 0 < w 0%nat /\ w 1%nat = 0) fit_in.
Proof.
  destruct in_settings as (Et & H1 & H2 & H3 & H4). destruct in_data as (D1 & D2 & D3 & D4 & D5 & D6).
  destruct (c107_single (dsort xops) xr_sort 2 2 ltac:(lia) inX iny inb oe (1/10) _ fit_in (1/100) oS inq (1/2) (1/400) in_fit (proj1 in_accepted) Et ltac:(lra) H1 H2 H3 (H4 _) D1 D2 in_incoherent D3 in_exact) as (N & w & (Q1 & Q2) & Hall).
  exists N, w. split; auto. split; [|apply Q1; auto]. destruct (Q2 (1/2) (1/200) D4 ltac:(lra) ltac:(lra) D5 D6 0%nat ltac:(lia)) as [_ P].
  unfold inb, ob in P. cbn [Nat.eqb] in P. specialize (P ltac:(lra)). lra.
Qed.
