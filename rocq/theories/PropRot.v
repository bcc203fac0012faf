(** Property theorems C69 and C70: negated targets and combined tasks (see [SpecRot]).  Exact
    arithmetic; [fit m] is a call with iteration budget [m]. *)
From Coq Require Import List ZArith Bool Arith Lia Reals.
From Verif Require Import Ops Arr MUtils MDatasets MHyper MEstimators XR IEEE RSum SpecPen SpecLin SpecData PDataEx SpecSolve SpecOpt SpecPath PLaws POptEx PRunsEx PPathEx SpecRot PRotFit PRotEx.
Import ListNotations.
Open Scope R_scope.

(** *** C69: negated targets give exactly the negated coefficients *)
Theorem C69_negated_targets srt (VS : valid_sort xops srt) n p X y y' l k s fit fit' : (1 <= n)%nat ->
  single_fit srt n p X y l k s fit -> single_fit srt n p X y' l k s fit' -> accepted fit -> accepted fit' ->
  (forall i, (i < n)%nat -> y' i = - y i) ->
  forall m, (exists e, fit m = Panic e /\ fit' m = Panic e) \/ (exists w, fit m = Ret (Ok (xv p w)) /\ fit' m = Ret (Ok (xv p (fun j => - w j)))).
Proof. exact (fun Hn => negated_single srt VS n p Hn X y y' l k s fit fit'). Qed.
Print Assumptions C69_negated_targets.
Theorem C69_negated_targets_multitask srt (VS : valid_sort xops srt) n p T X Y Y' k s fit fit' : (1 <= n)%nat ->
  multi_fit srt n p T X Y k s fit -> multi_fit srt n p T X Y' k s fit' -> accepted fit -> accepted fit' ->
  (forall i t, (i < n)%nat -> (t < T)%nat -> Y' i t = - Y i t) ->
  forall m, (exists e, fit m = Panic e /\ fit' m = Panic e) \/ (exists W, fit m = Ret (Ok (xm p T W)) /\ fit' m = Ret (Ok (xm p T (fun j t => - W j t)))).
Proof. exact (fun Hn => negated_multi srt VS n p Hn T X Y Y' k s fit fit'). Qed.
Print Assumptions C69_negated_targets_multitask.
Example C69_nonvacuous :
  (single_fit (dsort xops) 3 3 (entry exE) oy Squared (EnetPen (1/10) (1/2)) (settings (opr (1/10) (1/2))) (fit_el (entry exE) oy (1/10)) /\ accepted (fit_el (entry exE) oy (1/10))) /\
  (single_fit (dsort xops) 3 3 (entry exE) (fun i => - oy i) Squared (EnetPen (1/10) (1/2)) (settings (opr (1/10) (1/2))) (fit_el (entry exE) (fun i => - oy i) (1/10)) /\ accepted (fit_el (entry exE) (fun i => - oy i) (1/10))) /\
  (multi_fit (dsort xops) 3 3 2 (entry exE) oY (MtLassoPen (1/10)) (settings (opr (1/10) 3)) (fit_mk 2 oY) /\ accepted (fit_mk 2 oY)) /\
  (multi_fit (dsort xops) 3 3 2 (entry exE) (fun i t => - oY i t) (MtLassoPen (1/10)) (settings (opr (1/10) 3)) (fit_mk 2 (fun i t => - oY i t)) /\ accepted (fit_mk 2 (fun i t => - oY i t))) /\ valid_sort xops (dsort xops).
Proof. exact (conj (ex_fit_el _ _ _ tenth_pos) (conj (ex_fit_el _ _ _ tenth_pos) (conj (ex_fit_mk _ _) (conj (ex_fit_mk _ _) xr_sort)))). Qed.

(** *** C70: without acceleration, combining the tasks by a rotation (or embedding them in a
    larger space) combines the coefficients alike *)
Theorem C70_combined_tasks srt (VS : valid_sort xops srt) n p T T' Q X Y Y' k s fit fit' : (1 <= n)%nat -> isometry T T' Q -> s_use_acceleration s = false ->
  multi_fit srt n p T X Y k s fit -> multi_fit srt n p T' X Y' k s fit' -> accepted fit -> accepted fit' ->
  (forall i t, (i < n)%nat -> (t < T')%nat -> Y' i t = mixed T Y Q i t) ->
  forall m, (exists e, fit m = Panic e /\ fit' m = Panic e) \/ (exists W, fit m = Ret (Ok (xm p T W)) /\ fit' m = Ret (Ok (xm p T' (mixed T W Q)))).
Proof. exact (fun Hn HQ HA => mixed_multi srt VS n p Hn T T' Q X Y Y' k s fit fit' HQ (or_introl HA)). Qed.
Print Assumptions C70_combined_tasks.
(** with acceleration (and different settings and sorts) this holds for the predictions of the
    multi-task Lasso up to the tolerances *)
Theorem C70_combined_tasks_predictions srt srt' (VS : valid_sort xops srt) (VS' : valid_sort xops srt') n p T T' Q X Y Y' a s s' fit fit' t1 t2 : (1 <= n)%nat -> isometry T T' Q -> 0 < a ->
  multi_fit srt n p T X Y (MtLassoPen a) s fit -> multi_fit srt' n p T' X Y' (MtLassoPen a) s' fit' -> accepted fit -> accepted fit' ->
  patient p T s t1 -> patient p T' s' t2 -> (forall i t, (i < n)%nat -> (t < T')%nat -> Y' i t = mixed T Y Q i t) ->
  exists N W V, (forall m, (N <= m)%nat -> fit m = Ret (Ok (xm p T W)) /\ fit' m = Ret (Ok (xm p T' V))) /\
    Sum n (fun i => Sum T' (fun t => (mixed T (lin_mt p X W) Q i t - lin_mt p X V i t) ^ 2)) / INR n <= (t1 + t2) * (Sum n (fun i => Sum T (fun t => Y i t ^ 2)) / INR n / a).
Proof. exact (mixed_fits_mt srt srt' VS VS' n p T T' Q X Y Y' a s s' fit fit' t1 t2). Qed.
Print Assumptions C70_combined_tasks_predictions.
(** the exact statement fails with acceleration, already for two swapped tasks *)
Theorem C70_task_order_accelerated_refuted : exists (pr : params f64) X Y Y' x x', mrows Y' = map (@rev f64) (mrows Y) /\
  at_of 0 0 (fit_unchecked (mt_lasso_check_ref ops64) (mt_lasso_fit_dense ops64 srt64) pr (Dataset X (T2 Y))) = Some x /\
  at_of 0 1 (fit_unchecked (mt_lasso_check_ref ops64) (mt_lasso_fit_dense ops64 srt64) pr (Dataset X (T2 Y'))) = Some x' /\
  flt ops64 (flit ops64 1 10) (fabs ops64 (fsub ops64 x x')) = true.
Proof. exact swap_refuted. Qed.
Print Assumptions C70_task_order_accelerated_refuted.
Example C70_nonvacuous : isometry 2 3 qQ /\ s_use_acceleration (settings mxpr) = false /\
  (multi_fit (dsort xops) 3 3 2 (entry exE) oY (MtEnetPen (1/10) (1/2)) (settings mxpr) (fit_mx 2 oY) /\ accepted (fit_mx 2 oY)) /\
  (multi_fit (dsort xops) 3 3 3 (entry exE) (mixed 2 oY qQ) (MtEnetPen (1/10) (1/2)) (settings mxpr) (fit_mx 3 (mixed 2 oY qQ)) /\ accepted (fit_mx 3 (mixed 2 oY qQ))) /\
  (multi_fit (dsort xops) 3 3 2 (entry exE) oY (MtLassoPen (1/10)) (settings (opr (1/10) 3)) (fit_mk 2 oY) /\ accepted (fit_mk 2 oY)) /\
  (multi_fit (dsort xops) 3 3 3 (entry exE) (mixed 2 oY qQ) (MtLassoPen (1/10)) (settings (opr (1/10) 3)) (fit_mk 3 (mixed 2 oY qQ)) /\ accepted (fit_mk 3 (mixed 2 oY qQ))) /\
  (patient 3 2 (settings (opr (1/10) 3)) (1/100) /\ patient 3 3 (settings (opr (1/10) 3)) (1/100)) /\ valid_sort xops (dsort xops).
Proof. exact (conj qQ_iso (conj eq_refl (conj (ex_fit_mx _ _) (conj (ex_fit_mx _ _) (conj (ex_fit_mk _ _) (conj (ex_fit_mk _ _) (conj patient_mk xr_sort))))))). Qed.
