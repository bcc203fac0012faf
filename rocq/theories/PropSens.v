(** Property theorems C100: fits depend continuously on the regularisation strength and on
    [l1_ratio].  Exact arithmetic; [k] and [k'] are two Lasso or elastic-net penalties with weights
    [c], [c'] of the absolute values, [fit] and [fit'] the two families of calls. *)
From Coq Require Import List ZArith Bool Arith Reals.
From Verif Require Import Ops Arr MUtils MDatasets MHyper MEstimators XR RSum SpecPen SpecLin SpecData PDataEx SpecSolve PLaws SpecOpt SpecBudget PSens POptEx PSensEx.
Import ListNotations.
Open Scope R_scope.

(** coefficients; the first penalty has a quadratic part *)
Theorem C100_coefficients srt srt' (VS : valid_sort xops srt) (VS' : valid_sort xops srt') n p X y l k k' c c' s s' fit fit' t t' : (1 <= n)%nat ->
  single_fit srt n p X y l k s fit -> single_fit srt' n p X y l k' s' fit' -> targets_ok l n y -> l1_weight k c -> l1_weight k' c' -> accepted fit -> accepted fit' ->
  s_tolerance s = Fin t -> s_tolerance s' = Fin t' -> 0 < t -> 0 < t' ->
  (forall q, In q [s; s'] -> (1 <= s_ws_start_size q)%nat /\ (1 <= s_max_epochs q)%nat /\ calm_schedule (s_use_acceleration q) (s_K q) (s_max_epochs q) /\
     accel_safe (s_use_acceleration q) (s_K q) (Nat.min (s_ws_start_size q) p) (s_max_epochs q)) ->
  0 < ridge k ->
  exists N w v, (forall m, (N <= m)%nat -> fit m = Ret (Ok (xv p w)) /\ fit' m = Ret (Ok (xv p v))) /\
    ridge k * sqrt (Sum p (fun j => (w j - v j) ^ 2)) <= sqrt (INR p) * (t + t' + Rabs (c - c')) + Rabs (ridge k - ridge k') * sqrt (Sum p (fun j => v j ^ 2)).
Proof. exact (fun Hn => c100_fit_coefficients srt srt' VS VS' n p Hn X y l k k' c c' s s' fit fit' t t'). Qed.
Print Assumptions C100_coefficients.
(** predictions on the training data, squared loss, Lasso included *)
Theorem C100_predictions srt srt' (VS : valid_sort xops srt) (VS' : valid_sort xops srt') n p X y k k' c c' s s' fit fit' t t' : (1 <= n)%nat ->
  single_fit srt n p X y Squared k s fit -> single_fit srt' n p X y Squared k' s' fit' -> l1_weight k c -> l1_weight k' c' -> accepted fit -> accepted fit' ->
  s_tolerance s = Fin t -> s_tolerance s' = Fin t' -> 0 < t -> 0 < t' ->
  (forall q, In q [s; s'] -> (1 <= s_ws_start_size q)%nat /\ (1 <= s_max_epochs q)%nat /\ calm_schedule (s_use_acceleration q) (s_K q) (s_max_epochs q) /\
     accel_safe (s_use_acceleration q) (s_K q) (Nat.min (s_ws_start_size q) p) (s_max_epochs q)) ->
  0 < c -> 0 < c' ->
  exists N w v, (forall m, (N <= m)%nat -> fit m = Ret (Ok (xv p w)) /\ fit' m = Ret (Ok (xv p v))) /\
    let o := Sum n (fun i => y i ^ 2) / (2 * INR n) in
    Sum n (fun i => (lin p X w i - lin p X v i) ^ 2) / INR n <= (t + t' + Rabs (c - c') + Rabs (ridge k - ridge k') * (o / c')) * (o / c + o / c').
Proof. exact (fun Hn HF HF' Hw Hw' HA HA' Et Et' Ht Ht' Hq => c100_fit_predictions srt srt' VS VS' n p Hn X y Squared k k' c c' s s' fit fit' t t' HF HF' I Hw Hw' HA HA' Et Et' Ht Ht' Hq eq_refl). Qed.
Print Assumptions C100_predictions.
(** logistic elastic nets and Lassos for all parameter values *)
Example C100_nonvacuous : (forall a r, 0 < a -> 0 <= r <= 1 -> single_fit (dsort xops) 3 3 (entry exE) oy Logistic (EnetPen a r) (settings (opr 0 0)) (fit_var a r)) /\
  (forall a, 0 <= a -> single_fit (dsort xops) 3 3 (entry exE) oy Squared (LassoPen a) (settings (opr 0 0)) (fit_las a)) /\
  ((forall a r, accepted (fit_var a r)) /\ forall a, accepted (fit_las a)) /\ targets_ok Logistic 3 oy /\
  (let s := settings (opr 0 0) in s_tolerance s = Fin (1/100) /\
   forall q, In q [s; s] -> (1 <= s_ws_start_size q)%nat /\ (1 <= s_max_epochs q)%nat /\ calm_schedule (s_use_acceleration q) (s_K q) (s_max_epochs q) /\
     accel_safe (s_use_acceleration q) (s_K q) (Nat.min (s_ws_start_size q) 3) (s_max_epochs q)) /\
  (l1_weight (EnetPen (1/10) (1/2)) (1/20) /\ l1_weight (EnetPen (1/8) (1/4)) (1/32) /\ ridge (EnetPen (1/10) (1/2)) = 1/20 /\ ridge (EnetPen (1/8) (1/4)) = 3/32).
Proof. exact (conj var_fit (conj las_fit (conj var_accepted (conj (proj1 (proj2 ex_ok)) (conj var_settings var_weights))))). Qed.
