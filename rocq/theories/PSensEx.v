(** Concrete instances for [PropSens]. *)
From Coq Require Import List ZArith Bool Arith Reals Lra Lia.
From Verif Require Import Ops Arr MUtils MDatasets MDatafits MDatafitsMT MPenalties MBlockPenalties MCd MBcd MHyper MEstimators XR SpecPen VecR PBase RSum SpecLin SpecData PDataEx SpecSolve PLaws SpecOpt PFitOpt SpecBudget POptEx.
Import ListNotations.
Open Scope R_scope.

(** the logistic elastic net of C28, its strength and mixing parameter varied *)
Definition fit_var a r m := ok (solver_call (dsort xops) (dense_dm xops) (log_dense xops) (EnetPen a r) (solver_max_iterations m (settings (opr 0 0))) (Dataset (xm 3 3 (entry exE)) (T2 (xm 3 1 (fun i _ => oy i)))) (Logi [])).
Lemma var_fit a r : 0 < a -> 0 <= r <= 1 -> single_fit (dsort xops) 3 3 (entry exE) oy Logistic (EnetPen a r) (settings (opr 0 0)) (fit_var a r).
Proof. intros Ha Hr. apply (solve_log_dense (dsort xops) 3 3 (entry exE) oy (EnetPen a r) (settings (opr 0 0))); [right; reflexivity|simpl; lra]. Qed.
(** least squares with Lasso penalty through the solver *)
Definition fit_las a m := ok (solver_call (dsort xops) (dense_dm xops) (quad_dense xops) (LassoPen a) (solver_max_iterations m (settings (opr 0 0))) (Dataset (xm 3 3 (entry exE)) (T2 (xm 3 1 (fun i _ => oy i)))) (Quad [] [])).
Lemma las_fit a : 0 <= a -> single_fit (dsort xops) 3 3 (entry exE) oy Squared (LassoPen a) (settings (opr 0 0)) (fit_las a).
Proof. intros Ha. apply (solve_quad_dense (dsort xops) 3 3 (entry exE) oy (LassoPen a) (settings (opr 0 0))); [right; reflexivity|simpl; lra]. Qed.
Lemma var_accepted : (forall a r, accepted (fit_var a r)) /\ forall a, accepted (fit_las a).
Proof.
  assert (Hp : forall A (r : res A) e, ok r <> Ret (Err e)) by (intros A [r|] e; discriminate).
  split; intros; intros m e; apply Hp.
Qed.
Lemma var_settings : let s := settings (opr 0 0) in s_tolerance s = Fin (1/100) /\
  forall q, In q [s; s] -> (1 <= s_ws_start_size q)%nat /\ (1 <= s_max_epochs q)%nat /\ calm_schedule (s_use_acceleration q) (s_K q) (s_max_epochs q) /\
     accel_safe (s_use_acceleration q) (s_K q) (Nat.min (s_ws_start_size q) 3) (s_max_epochs q).
Proof. destruct (ex_settings 0 0) as (A & B & C & D & E & _). intros s. split; [exact A|]. intros q [<-|[<-|[]]]; auto. Qed.
Lemma var_weights : l1_weight (EnetPen (1/10) (1/2)) (1/20) /\ l1_weight (EnetPen (1/8) (1/4)) (1/32) /\ ridge (EnetPen (1/10) (1/2)) = 1/20 /\ ridge (EnetPen (1/8) (1/4)) = 3/32.
Proof. cbn [l1_weight ridge]. repeat split; lra. Qed.
