(** Property theorems C105: how much added samples can change a fit.  Exact arithmetic; [w] is the
    model fitted to [n + m] samples, [v] the one fitted to the first [n] of them. *)
From Coq Require Import List ZArith Bool Arith Reals.
From Verif Require Import Ops Arr MUtils MDatasets MHyper MEstimators XR RSum SpecPen SpecLin SpecData PDataEx SpecSolve PLaws SpecOpt SpecBudget SpecOracle SpecSample SpecAdd PAdd POptEx PSensEx PAddEx.
Import ListNotations.
Open Scope R_scope.

(** coefficients, for both losses; then, for the logistic loss, with the data only through the largest
    sample; then the predictions for the squared loss, Lasso included *)
Theorem C105_added_samples srt srt' (VS : valid_sort xops srt) (VS' : valid_sort xops srt') n m p (Hn : (1 <= n)%nat) X X' y y' l k c s s' fit fit' t t' :
  single_fit srt (n + m) p X y l k s fit -> single_fit srt' n p X' y' l k s' fit' -> targets_ok l (n + m) y -> same_first n p X y X' y' ->
  l1_weight k c -> accepted fit -> accepted fit' -> s_tolerance s = Fin t -> s_tolerance s' = Fin t' -> 0 < t -> 0 < t' ->
  (forall q, In q [s; s'] -> (1 <= s_ws_start_size q)%nat /\ (1 <= s_max_epochs q)%nat /\ calm_schedule (s_use_acceleration q) (s_K q) (s_max_epochs q) /\
     accel_safe (s_use_acceleration q) (s_K q) (Nat.min (s_ws_start_size q) p) (s_max_epochs q)) ->
  exists N w v, (forall b, (N <= b)%nat -> fit b = Ret (Ok (xv p w)) /\ fit' b = Ret (Ok (xv p v))) /\
    let d j := w j - v j in let r i := Rabs (slope l (y i) (lin p X v i)) in
    ridge k * sqrt (Sum p (fun j => d j ^ 2)) <= sqrt (INR p) * (t + t') + reweighed n m (fun i => length_of p X i * r i) /\
    (l = Logistic -> forall R0, (forall i, (i < n + m)%nat -> length_of p X i <= R0) -> ridge k * sqrt (Sum p (fun j => d j ^ 2)) <= sqrt (INR p) * (t + t') + 2 * INR m * R0 / INR (n + m)) /\
    (l = Squared -> msp (n + m) p X d + ridge k * Sum p (fun j => d j ^ 2) <= (t + t') * Sum p (fun j => Rabs (d j)) + reweighed n m (fun i => r i * Rabs (lin p X d i))).
Proof. exact (c105 srt srt' VS VS' n m p Hn X X' y y' l k c s s' fit fit' t t'). Qed.
Print Assumptions C105_added_samples.
(** a third sample added; logistic elastic nets and Lassos for all parameter values *)
Example C105_nonvacuous :
  (forall a r, 0 < a -> 0 <= r <= 1 -> single_fit (dsort xops) (2 + 1) 3 (entry exE) oy Logistic (EnetPen a r) (settings (opr 0 0)) (fit_var a r) /\
     single_fit (dsort xops) 2 3 (entry exE) oy Logistic (EnetPen a r) (settings (opr 0 0)) (fit_two a r)) /\
  (forall a, 0 <= a -> single_fit (dsort xops) (2 + 1) 3 (entry exE) oy Squared (LassoPen a) (settings (opr 0 0)) (fit_las a) /\
     single_fit (dsort xops) 2 3 (entry exE) oy Squared (LassoPen a) (settings (opr 0 0)) (fit_two_las a)) /\
  (((forall a r, accepted (fit_var a r)) /\ forall a, accepted (fit_las a)) /\ ((forall a r, accepted (fit_two a r)) /\ forall a, accepted (fit_two_las a))) /\
  (same_first 2 3 (entry exE) oy (entry exE) oy /\ targets_ok Logistic (2 + 1) oy /\ forall i, (i < 2 + 1)%nat -> length_of 3 (entry exE) i <= 3) /\
  (let s := settings (opr 0 0) in s_tolerance s = Fin (1/100) /\
   forall q, In q [s; s] -> (1 <= s_ws_start_size q)%nat /\ (1 <= s_max_epochs q)%nat /\ calm_schedule (s_use_acceleration q) (s_K q) (s_max_epochs q) /\
     accel_safe (s_use_acceleration q) (s_K q) (Nat.min (s_ws_start_size q) 3) (s_max_epochs q)) /\
  (l1_weight (EnetPen (1/10) (1/2)) (1/20) /\ l1_weight (EnetPen (1/8) (1/4)) (1/32) /\ ridge (EnetPen (1/10) (1/2)) = 1/20 /\ ridge (EnetPen (1/8) (1/4)) = 3/32).
Proof. exact (conj (fun a r Ha Hr => conj (var_fit a r Ha Hr) (two_fit a r Ha Hr)) (conj (fun a Ha => conj (las_fit a Ha) (two_las a Ha)) (conj (conj var_accepted two_accepted) (conj two_data (conj var_settings var_weights))))). Qed.
