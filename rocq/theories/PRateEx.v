(** Concrete instances for [PropRate]. *)
From Coq Require Import List ZArith Bool Arith Reals Lra Lia.
From Verif Require Import Ops Arr MUtils MDatasets MDatafits MDatafitsMT MPenalties MBlockPenalties MCd MBcd MHyper MEstimators XR VecR RSum PBase SpecPen SpecLin SpecData SpecDatafit PDataEx SpecSolve PLaws PDatafit PDataProps SpecOpt PFitOpt POptEx PRunsEx PRuns SpecBudget PPanics PBudget PBudgetEx.
Import ListNotations.
Open Scope R_scope.

(** the logistic elastic net of C28 with tolerance 0 *)
Definition rst : solver xr := settings (set_tolerance (Fin 0) (opr 0 0)).
Definition fit_rate m := ok (solver_call (dsort xops) (dense_dm xops) (log_dense xops) (EnetPen (1/10) (1/2)) (solver_max_iterations m rst) (Dataset (xm 3 3 (entry exE)) (T2 (xm 3 1 (fun i _ => oy i)))) (Logi [])).
Lemma rate_fit : single_fit (dsort xops) 3 3 (entry exE) oy Logistic (EnetPen (1/10) (1/2)) rst fit_rate.
Proof. apply (solve_log_dense (dsort xops) 3 3 (entry exE) oy (EnetPen (1/10) (1/2)) rst); [right; reflexivity|simpl; lra]. Qed.
Lemma rate_returns m : exists v, fit_rate m = Ret (Ok v).
Proof.
  destruct (c22_logistic xops xr_laws (dsort xops) xr_sort 3 3 (xm 3 3 (entry exE)) exC (T2 (xm 3 1 (fun i _ => oy i))) (solver_max_iterations m rst)) as (_ & Q & _).
  - apply xm_shaped.
  - unfold csc_wf, exC. simpl. repeat split; auto; repeat constructor; lia.
  - cbn [target1_wf]. destruct (xm_shaped 3 1 (fun i _ => oy i)) as (A & B & D). auto.
  - right. left. simpl. lia.
  - destruct (Q (Logi []) (L1PlusL2 (Fin (1/10)) (Fin (1/2)))) as (v & Ev & _). exists v. unfold fit_rate, solver_call, ok. rewrite Ev. reflexivity.
Qed.
Lemma rate_settings : s_tolerance rst = Fin 0 /\ (1 <= s_ws_start_size rst)%nat /\ (1 <= s_max_epochs rst)%nat /\ calm_schedule (s_use_acceleration rst) (s_K rst) (s_max_epochs rst).
Proof. split; [reflexivity|]. split; [simpl; lia|]. split; [simpl; lia|]. apply calm_3_50. Qed.
Lemma rate_curv : (forall j, (j < 3)%nat -> mean_square 3 (entry exE) j <= 10 / 3) /\
  (forall j, (j < 3)%nat -> nonzero_column 3 (entry exE) j -> 1 / 3 <= total_curvature (EnetPen (1/10) (1/2)) (curvature Logistic 3 (entry exE) j)) /\
  (forall j, (j < 3)%nat -> nonzero_column 3 (entry exE) j -> 4 / 3 <= mean_square 3 (entry exE) j) /\
  ridge (EnetPen (1/10) (1/2)) = 1 / 20.
Proof.
  destruct ex_budget as (A & _ & D & _). split; [exact A|]. split; [|split; [exact D|cbn [ridge]; lra]]. intros j Hj Hx. specialize (D j Hj Hx). cbn [total_curvature curvature]. unfold mean_square in D.
  replace (Sum 3 (fun i => entry exE i j ^ 2) / (4 * INR 3)) with (Sum 3 (fun i => entry exE i j ^ 2) / INR 3 / 4) by (field; apply not_0_INR; lia). lra.
Qed.
