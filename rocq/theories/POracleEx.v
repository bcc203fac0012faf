(** Concrete instances for [PropOracle]: the design of C25, one relevant feature, noise on the first sample. *)
From Coq Require Import List ZArith Bool Arith Reals Lra Lia.
From Verif Require Import Ops Arr MUtils MDatasets MHyper MEstimators XR SpecPen VecR PBase RSum SpecLin SpecData PDataEx SpecSolve PLaws PDescent PCalc SpecOpt PFitOpt POptEx SpecOracle POracle.
Import ListNotations.
Open Scope R_scope.

Definition ob (j : nat) : R := if Nat.eqb j 0 then 1 else 0.
Definition oe (i : nat) : R := if Nat.eqb i 0 then 1/100 else 0.
Definition oyb (i : nat) : R := lin 3 (entry exE) ob i + oe i.
Definition oB (j t : nat) : R := ob j.
Definition oE (i t : nat) : R := if Nat.eqb t 0 then oe i else 0.
Definition oYB (i t : nat) : R := lin_mt 3 (entry exE) oB i t + oE i t.
Definition oS (j : nat) : bool := Nat.eqb j 0.
Definition fit_ora m := estimator_dense (dsort xops) (LassoPen (1/10)) (set_max_iterations m (opr (1/10) 0)) (Dataset (xm 3 3 (entry exE)) (T1 (xv 3 oyb))).
Definition fit_ora_mt m := mt_estimator_dense (dsort xops) (MtLassoPen (1/10)) (set_max_iterations m (opr (1/10) 0)) (Dataset (xm 3 3 (entry exE)) (T2 (xm 3 2 oYB))).

Lemma ora_fit : single_fit (dsort xops) 3 3 (entry exE) oyb Squared (LassoPen (1/10)) (settings (opr (1/10) 0)) fit_ora.
Proof. apply (fit_dense (dsort xops) 3 3 (entry exE) oyb (LassoPen (1/10)) (opr (1/10) 0)); [left; reflexivity|reflexivity]. Qed.
Lemma ora_fit_mt : multi_fit (dsort xops) 3 3 2 (entry exE) oYB (MtLassoPen (1/10)) (settings (opr (1/10) 0)) fit_ora_mt.
Proof. apply (mt_fit_dense (dsort xops) 3 3 2 (entry exE) oYB (MtLassoPen (1/10)) (opr (1/10) 0)); [left; reflexivity|reflexivity|simpl; lra]. Qed.
Lemma ora_accepted : accepted fit_ora /\ accepted fit_ora_mt.
Proof.
  assert (Hp : forall A (r : res A) e, ok r <> Ret (Err e)) by (intros A [r|] e; discriminate).
  assert (B : forall a s m, 0 <= a -> lasso_check_ref xops (set_max_iterations m (opr a s)) = Ok (set_max_iterations m (opr a s))).
  { intros a s m Ha. unfold lasso_check_ref, set_max_iterations, opr. cbn [p_alpha p_tolerance p_K p_ws_start_size fisneg xops xisneg Nat.leb].
    rewrite !(proj2 (Rltb_false _ _)) by lra. reflexivity. }
  split; intros m e.
  - unfold fit_ora. cbn [estimator_dense]. unfold fit_unchecked. rewrite B by lra. apply Hp.
  - unfold fit_ora_mt. cbn [mt_estimator_dense]. unfold fit_unchecked. change (mt_lasso_check_ref xops) with (lasso_check_ref xops). rewrite B by lra. apply Hp.
Qed.
Lemma INR3 : INR 3 = 3. Proof. rewrite INR_IZR_INZ. reflexivity. Qed.
Lemma ora_corr j : (j < 3)%nat -> Rabs (Sum 3 (fun i => entry exE i j * oe i) / INR 3) <= 1 / 300.
Proof.
  intros Hj. rewrite INR3, ?Sum_S, Sum_0. destruct ex_entries as (E0 & E1 & E2 & E3 & E4 & E5 & E6). unfold oe. cbn [Nat.eqb].
  destruct j as [|[|[|j]]]; [| | |lia]; rewrite ?E0, ?E1, ?E2, ?E3, ?E4, ?E5, ?E6; apply Rabs_le; lra.
Qed.
Lemma ora_data : generated 3 3 (entry exE) oyb ob oe /\ noise_level 3 3 (entry exE) oe (1/300) /\ support_in 3 oS ob /\ size_of 3 oS = 1.
Proof.
  split; [intros i _; reflexivity|]. split; [split; [lra|exact ora_corr]|]. split; [|reflexivity]. intros j _. unfold oS, ob. intros ->. reflexivity.
Qed.
Lemma ora_re : restricted_eigenvalue 3 3 (entry exE) oS (10/3).
Proof.
  intros d _. unfold sum_in, msp, lin. rewrite INR3, ?Sum_S, ?Sum_0. destruct ex_entries as (E0 & E1 & E2 & E3 & E4 & E5 & E6). unfold oS. cbn [Nat.eqb].
  rewrite E0, E1, E2, E3, E4, E5, !E6. pose proof (pow2_ge_0 (d 1%nat)). lra.
Qed.
Lemma ora_data_mt : generated_mt 3 3 2 (entry exE) oYB oB oE /\ noise_level_mt 3 3 2 (entry exE) oE (1/300) /\ support_in_mt 3 2 oS oB.
Proof.
  split; [intros i t _ _; reflexivity|]. split; [split; [lra|]|].
  - intros j Hj. apply Rle_trans with (2 := ora_corr j Hj). apply Rsqr_incr_0_var; [|apply Rabs_pos]. rewrite !Rsqr_pow2, pow2_abs. change (map (fun t => Sum 3 (fun i => entry exE i j * oE i t) / INR 3) (seq 0 2)) with (tab 2 (fun t => Sum 3 (fun i => entry exE i j * oE i t) / INR 3)).
    rewrite norm2_tab, !(Sum_S 1), !(Sum_S 0), !Sum_0. unfold oE. cbn [Nat.eqb]. rewrite (Sum_zero 3 (fun i => entry exE i j * 0)) by (intros; ring). right. field. rewrite INR3. lra.
  - intros j t _ _. unfold oS, oB, ob. intros ->. reflexivity.
Qed.
Lemma ora_re_mt : restricted_eigenvalue_mt 3 3 2 (entry exE) oS (10/3).
Proof.
  intros D r _. unfold sum_in, msp_mt, lin_mt. rewrite INR3, ?Sum_S, ?Sum_0. unfold oS. cbn [Nat.eqb]. unfold r. change (map (D 0%nat) (seq 0 2)) with (tab 2 (D 0%nat)). rewrite norm2_tab, ?Sum_S, ?Sum_0.
  destruct ex_entries as (E0 & E1 & E2 & E3 & E4 & E5 & E6). rewrite E0, E1, E2, E3, E4, E5, !E6. pose proof (pow2_ge_0 (D 1%nat 0%nat)). pose proof (pow2_ge_0 (D 1%nat 1%nat)). lra.
Qed.
(** what the theorem says here: the relevant feature is found, with its sign *)
Lemma ora_recovers : settles 3 (fun w => 0 < w 0%nat /\ Sum 3 (fun j => Rabs (w j - ob j)) <= 9 / 50) fit_ora.
Proof.
  destruct (c99_single (dsort xops) xr_sort 3 3 ltac:(lia) (entry exE) oyb ob oe (1/10) _ fit_ora (1/100) (1/300) ora_fit (proj1 ora_accepted)) as (N & w & (_ & Q) & Hall); try apply ex_settings; try apply ora_data; [lra|].
  exists N, w. split; auto. destruct (Q oS (10/3)) as (_ & Q1 & Q2); try apply ora_data; try apply ora_re; try lra. rewrite (proj2 (proj2 (proj2 ora_data))) in *. cbv beta in Q1. split.
  - specialize (Q2 0%nat ltac:(lia)). unfold ob in Q2. cbn [Nat.eqb] in Q2. rewrite Rabs_R1 in Q2. lra.
  - lra.
Qed.
