(** Concrete instances for [PropSensMT]. *)
From Coq Require Import List ZArith Bool Arith Reals Lra Lia.
From Verif Require Import Ops Arr MUtils MDatasets MDatafits MDatafitsMT MPenalties MBlockPenalties MCd MBcd MHyper MEstimators XR SpecPen VecR PBase RSum SpecLin SpecData PDataEx SpecSolve PLaws SpecOpt PFitOpt SpecBudget SpecPath POptEx PSensEx SpecSample PSampleEx.
Import ListNotations.
Open Scope R_scope.

(** multi-task Lassos for all strengths, on the data of C25 and with the first sample replaced *)
Definition oYr (i t : nat) : R := if repl i then 2 else oY i t.
Definition fit_ml a m := ok (mt_solver_call (dsort xops) (dense_dm xops) (qmt_dense xops) (MtLassoPen a) (solver_max_iterations m (settings (opr 0 0))) (Dataset (xm 3 3 (entry exE)) (T2 (xm 3 2 oY))) (QuadMT [] (Mat 0 0 []))).
Definition fit_ml_r a m := ok (mt_solver_call (dsort xops) (dense_dm xops) (qmt_dense xops) (MtLassoPen a) (solver_max_iterations m (settings (opr 0 0))) (Dataset (xm 3 3 exR) (T2 (xm 3 2 oYr))) (QuadMT [] (Mat 0 0 []))).
Lemma ml_fit a : 0 < a -> multi_fit (dsort xops) 3 3 2 (entry exE) oY (MtLassoPen a) (settings (opr 0 0)) (fit_ml a).
Proof. intros Ha. apply (mt_solve_dense (dsort xops) 3 3 2 (entry exE) oY (MtLassoPen a) (settings (opr 0 0))); [left; reflexivity|exact Ha]. Qed.
Lemma ml_fit_r a : 0 < a -> multi_fit (dsort xops) 3 3 2 exR oYr (MtLassoPen a) (settings (opr 0 0)) (fit_ml_r a).
Proof. intros Ha. apply (mt_solve_dense (dsort xops) 3 3 2 exR oYr (MtLassoPen a) (settings (opr 0 0))); [left; reflexivity|exact Ha]. Qed.
Lemma ml_accepted a : accepted (fit_ml a) /\ accepted (fit_ml_r a).
Proof.
  assert (Hp : forall A (r : res A) e, ok r <> Ret (Err e)) by (intros A [r|] e; discriminate).
  split; intros m e; apply Hp.
Qed.
Lemma ml_patient : patient 3 2 (settings (opr 0 0)) (1/100).
Proof. destruct (ex_settings 0 0) as (A & B & C & D & E & F). unfold patient. repeat (split; [assumption || lra|]). assumption. Qed.
Lemma ml_data : same_but_mt 3 3 2 repl (entry exE) oY exR oYr.
Proof. intros i Hi E. unfold oYr, exR. rewrite E. auto. Qed.
