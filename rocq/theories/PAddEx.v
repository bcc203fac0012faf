(** Concrete instances for [PropAdd]: the third of three samples is added to the first two. *)
From Coq Require Import List ZArith Bool Arith Reals Lra Lia.
From Verif Require Import Ops Arr MUtils MDatasets MDatafits MPenalties MCd MHyper MEstimators XR SpecPen PBase RSum SpecLin SpecData PDataEx SpecSolve PLaws SpecOpt SpecBudget SpecSample SpecAdd POptEx PSensEx.
Import ListNotations.
Open Scope R_scope.

Definition fit_two a r m := ok (solver_call (dsort xops) (dense_dm xops) (log_dense xops) (EnetPen a r) (solver_max_iterations m (settings (opr 0 0))) (Dataset (xm 2 3 (entry exE)) (T2 (xm 2 1 (fun i _ => oy i)))) (Logi [])).
Lemma two_fit a r : 0 < a -> 0 <= r <= 1 -> single_fit (dsort xops) 2 3 (entry exE) oy Logistic (EnetPen a r) (settings (opr 0 0)) (fit_two a r).
Proof. intros Ha Hr. apply (solve_log_dense (dsort xops) 2 3 (entry exE) oy (EnetPen a r) (settings (opr 0 0))); [right; reflexivity|simpl; lra]. Qed.
Definition fit_two_las a m := ok (solver_call (dsort xops) (dense_dm xops) (quad_dense xops) (LassoPen a) (solver_max_iterations m (settings (opr 0 0))) (Dataset (xm 2 3 (entry exE)) (T2 (xm 2 1 (fun i _ => oy i)))) (Quad [] [])).
Lemma two_las a : 0 <= a -> single_fit (dsort xops) 2 3 (entry exE) oy Squared (LassoPen a) (settings (opr 0 0)) (fit_two_las a).
Proof. intros Ha. apply (solve_quad_dense (dsort xops) 2 3 (entry exE) oy (LassoPen a) (settings (opr 0 0))); [right; reflexivity|simpl; lra]. Qed.
Lemma two_accepted : (forall a r, accepted (fit_two a r)) /\ forall a, accepted (fit_two_las a).
Proof.
  assert (Hp : forall A (r : res A) e, ok r <> Ret (Err e)) by (intros A [r|] e; discriminate).
  split; intros; intros m e; apply Hp.
Qed.
Lemma two_data : same_first 2 3 (entry exE) oy (entry exE) oy /\ targets_ok Logistic (2 + 1) oy /\ forall i, (i < 2 + 1)%nat -> length_of 3 (entry exE) i <= 3.
Proof.
  split; [intros i _; auto|]. split; [exact (proj1 (proj2 ex_ok))|]. destruct ex_entries as (E0 & E1 & E2 & E3 & E4 & E5 & E6).
  intros i Hi. unfold length_of. rewrite <- (sqrt_pow2 3) by lra. apply sqrt_le_1_alt. rewrite !Sum_S, Sum_0. 
  destruct i as [|[|[|i]]]; [| | |lia]; rewrite E6, ?E0, ?E1, ?E2, ?E3, ?E4, ?E5; lra.
Qed.
