(** Property theorems C100 and C101 for the multi-task Lasso: how fits depend on [alpha] and on
    single samples.  Exact arithmetic; [patient]: settings with which long runs reach the
    tolerance, as in C27. *)
From Coq Require Import List ZArith Bool Arith Reals.
From Verif Require Import Ops Arr MUtils MDatasets MHyper MEstimators XR RSum SpecPen SpecLin SpecData PDataEx SpecSolve PLaws SpecOpt SpecBudget SpecPath SpecOracle SpecSample PSensMT POptEx PSampleEx PSensMTEx.
Import ListNotations.
Open Scope R_scope.

Theorem C100_multitask_predictions srt srt' (VS : valid_sort xops srt) (VS' : valid_sort xops srt') n p T X Y a a' s s' fit fit' t t' : (1 <= n)%nat ->
  accepted fit -> accepted fit' -> patient p T s t -> patient p T s' t' ->
  multi_fit srt n p T X Y (MtLassoPen a) s fit -> multi_fit srt' n p T X Y (MtLassoPen a') s' fit' ->
  let o := Sum n (fun i => Sum T (fun u => Y i u ^ 2)) / (2 * INR n) in
  exists N W V, (forall m, (N <= m)%nat -> fit m = Ret (Ok (xm p T W)) /\ fit' m = Ret (Ok (xm p T V))) /\
    Sum n (fun i => Sum T (fun u => (lin_mt p X W i u - lin_mt p X V i u) ^ 2)) / INR n <= (t + t' + Rabs (a - a')) * (o / a + o / a').
Proof. exact (fun Hn HA HA' Hs Hs' => c100_multi srt srt' VS VS' n p T Hn s s' fit fit' t t' HA HA' Hs Hs' X Y a a'). Qed.
Print Assumptions C100_multitask_predictions.
(** [C]: the samples which differ; [V]: the model fitted to the second dataset; [size M i]: the
    Euclidean norm of row [i] *)
Theorem C101_multitask_changed_samples srt srt' (VS : valid_sort xops srt) (VS' : valid_sort xops srt') n p T C X X' Y Y' a s s' fit fit' t t' : (1 <= n)%nat ->
  accepted fit -> accepted fit' -> patient p T s t -> patient p T s' t' ->
  multi_fit srt n p T X Y (MtLassoPen a) s fit -> multi_fit srt' n p T X' Y' (MtLassoPen a) s' fit' -> same_but_mt n p T C X Y X' Y' ->
  exists N W V, (forall m, (N <= m)%nat -> fit m = Ret (Ok (xm p T W)) /\ fit' m = Ret (Ok (xm p T V))) /\
    let D : rmat := fun j u => W j u - V j u in let size (M : rmat) i := norm2 (map (M i) (seq 0 T)) in
    msp_mt n p T X D <= (t + t') * Sum p (size D) +
      sum_changed n C (fun i => size (fun i u => lin_mt p X V i u - Y i u) i * size (lin_mt p X D) i + size (fun i u => lin_mt p X' V i u - Y' i u) i * size (lin_mt p X' D) i) / INR n.
Proof. exact (fun Hn HA HA' Hs Hs' => c101_multi srt srt' VS VS' n p T Hn s s' fit fit' t t' HA HA' Hs Hs' C X X' Y Y' a). Qed.
Print Assumptions C101_multitask_changed_samples.
(** two tasks, three samples of which the first is replaced, every [alpha > 0] *)
Example C101_multitask_nonvacuous : (forall a, 0 < a -> multi_fit (dsort xops) 3 3 2 (entry exE) oY (MtLassoPen a) (settings (opr 0 0)) (fit_ml a) /\
    multi_fit (dsort xops) 3 3 2 exR oYr (MtLassoPen a) (settings (opr 0 0)) (fit_ml_r a)) /\
  (forall a, accepted (fit_ml a) /\ accepted (fit_ml_r a)) /\ patient 3 2 (settings (opr 0 0)) (1/100) /\ same_but_mt 3 3 2 repl (entry exE) oY exR oYr.
Proof. exact (conj (fun a Ha => conj (ml_fit a Ha) (ml_fit_r a Ha)) (conj ml_accepted (conj ml_patient ml_data))). Qed.
