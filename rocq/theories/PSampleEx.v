(** Concrete instances for [PropSample]. *)
From Coq Require Import List ZArith Bool Arith Reals Lra Lia.
From Verif Require Import Ops Arr MUtils MDatasets MDatafits MDatafitsMT MPenalties MBlockPenalties MCd MBcd MHyper MEstimators XR SpecPen VecR PBase RSum SpecLin SpecData PDataEx SpecSolve PLaws SpecOpt PFitOpt SpecBudget POptEx PSensEx SpecSample.
Import ListNotations.
Open Scope R_scope.

(** the first sample replaced: other features, target -1/2 *)
Definition repl (i : nat) : bool := Nat.eqb i 0.
Definition exR : rmat := fun i j => if repl i then 1 else entry exE i j.
Definition oyr (i : nat) : R := if repl i then - (1/2) else oy i.
Definition fit_log_r a r m := ok (solver_call (dsort xops) (dense_dm xops) (log_dense xops) (EnetPen a r) (solver_max_iterations m (settings (opr 0 0))) (Dataset (xm 3 3 exR) (T2 (xm 3 1 (fun i _ => oyr i)))) (Logi [])).
Definition fit_las_r a m := ok (solver_call (dsort xops) (dense_dm xops) (quad_dense xops) (LassoPen a) (solver_max_iterations m (settings (opr 0 0))) (Dataset (xm 3 3 exR) (T2 (xm 3 1 (fun i _ => oyr i)))) (Quad [] [])).
Lemma repl_fit a r : 0 < a -> 0 <= r <= 1 -> single_fit (dsort xops) 3 3 exR oyr Logistic (EnetPen a r) (settings (opr 0 0)) (fit_log_r a r).
Proof. intros Ha Hr. apply (solve_log_dense (dsort xops) 3 3 exR oyr (EnetPen a r) (settings (opr 0 0))); [right; reflexivity|simpl; lra]. Qed.
Lemma repl_las a : 0 <= a -> single_fit (dsort xops) 3 3 exR oyr Squared (LassoPen a) (settings (opr 0 0)) (fit_las_r a).
Proof. intros Ha. apply (solve_quad_dense (dsort xops) 3 3 exR oyr (LassoPen a) (settings (opr 0 0))); [right; reflexivity|simpl; lra]. Qed.
Lemma repl_accepted : (forall a r, accepted (fit_log_r a r)) /\ forall a, accepted (fit_las_r a).
Proof.
  assert (Hp : forall A (r : res A) e, ok r <> Ret (Err e)) by (intros A [r|] e; discriminate).
  split; intros; intros m e; apply Hp.
Qed.
Lemma repl_data : same_but 3 3 repl (entry exE) oy exR oyr /\ targets_ok Logistic 3 oy /\ targets_ok Logistic 3 oyr /\
  forall f, sum_changed 3 repl f = f 0%nat.
Proof.
  split; [|split; [exact (proj1 (proj2 ex_ok))|split]].
  - intros i Hi E. unfold oyr, exR. rewrite E. auto.
  - intros i Hi. unfold oyr. destruct (repl i); [|exact (proj1 (proj2 ex_ok) i Hi)]. apply Rabs_le. lra.
  - intros f. unfold sum_changed. rewrite !Sum_S, Sum_0. unfold repl. cbn [Nat.eqb]. ring.
Qed.
