(** Property theorems C101: how much single samples can change a fit.  Exact arithmetic; [C] marks
    the samples on which the two datasets differ, [w] is the model fitted to the first dataset and
    [v] the one fitted to the second. *)
From Coq Require Import List ZArith Bool Arith Reals.
From Verif Require Import Ops Arr MUtils MDatasets MHyper MEstimators XR RSum SpecPen SpecLin SpecData PDataEx SpecSolve PLaws SpecOpt SpecBudget SpecOracle SpecSample PSample POptEx PSensEx PSampleEx.
Import ListNotations.
Open Scope R_scope.

(** coefficients, for both losses; then without reference to [v] for the logistic loss; then the
    training predictions, Lasso included *)
Theorem C101_changed_samples srt srt' (VS : valid_sort xops srt) (VS' : valid_sort xops srt') n p C X X' y y' l k c s s' fit fit' t t' : (1 <= n)%nat ->
  single_fit srt n p X y l k s fit -> single_fit srt' n p X' y' l k s' fit' -> targets_ok l n y -> targets_ok l n y' -> same_but n p C X y X' y' ->
  l1_weight k c -> accepted fit -> accepted fit' -> s_tolerance s = Fin t -> s_tolerance s' = Fin t' -> 0 < t -> 0 < t' ->
  (forall q, In q [s; s'] -> (1 <= s_ws_start_size q)%nat /\ (1 <= s_max_epochs q)%nat /\ calm_schedule (s_use_acceleration q) (s_K q) (s_max_epochs q) /\
     accel_safe (s_use_acceleration q) (s_K q) (Nat.min (s_ws_start_size q) p) (s_max_epochs q)) ->
  exists N w v, (forall m, (N <= m)%nat -> fit m = Ret (Ok (xv p w)) /\ fit' m = Ret (Ok (xv p v))) /\
    let d j := w j - v j in let r i := Rabs (slope l (y i) (lin p X v i)) in let r' i := Rabs (slope l (y' i) (lin p X' v i)) in
    ridge k * sqrt (Sum p (fun j => d j ^ 2)) <= sqrt (INR p) * (t + t') + sum_changed n C (fun i => length_of p X i * r i + length_of p X' i * r' i) / INR n /\
    (l = Logistic -> ridge k * sqrt (Sum p (fun j => d j ^ 2)) <= sqrt (INR p) * (t + t') + sum_changed n C (fun i => length_of p X i + length_of p X' i) / INR n) /\
    (l = Squared -> msp n p X d + ridge k * Sum p (fun j => d j ^ 2) <= (t + t') * Sum p (fun j => Rabs (d j)) + sum_changed n C (fun i => r i * Rabs (lin p X d i) + r' i * Rabs (lin p X' d i)) / INR n).
Proof. exact (fun Hn => c101_all srt srt' VS VS' n p Hn C X X' y y' l k c s s' fit fit' t t'). Qed.
Print Assumptions C101_changed_samples.
(** one sample out of three replaced; logistic elastic nets and Lassos for all parameter values *)
Example C101_nonvacuous :
  (forall a r, 0 < a -> 0 <= r <= 1 -> single_fit (dsort xops) 3 3 (entry exE) oy Logistic (EnetPen a r) (settings (opr 0 0)) (fit_var a r) /\
     single_fit (dsort xops) 3 3 exR oyr Logistic (EnetPen a r) (settings (opr 0 0)) (fit_log_r a r)) /\
  (forall a, 0 <= a -> single_fit (dsort xops) 3 3 (entry exE) oy Squared (LassoPen a) (settings (opr 0 0)) (fit_las a) /\
     single_fit (dsort xops) 3 3 exR oyr Squared (LassoPen a) (settings (opr 0 0)) (fit_las_r a)) /\
  (((forall a r, accepted (fit_var a r)) /\ forall a, accepted (fit_las a)) /\ ((forall a r, accepted (fit_log_r a r)) /\ forall a, accepted (fit_las_r a))) /\
  (same_but 3 3 repl (entry exE) oy exR oyr /\ targets_ok Logistic 3 oy /\ targets_ok Logistic 3 oyr /\ forall f, sum_changed 3 repl f = f 0%nat) /\
  (let s := settings (opr 0 0) in s_tolerance s = Fin (1/100) /\
   forall q, In q [s; s] -> (1 <= s_ws_start_size q)%nat /\ (1 <= s_max_epochs q)%nat /\ calm_schedule (s_use_acceleration q) (s_K q) (s_max_epochs q) /\
     accel_safe (s_use_acceleration q) (s_K q) (Nat.min (s_ws_start_size q) 3) (s_max_epochs q)) /\
  (l1_weight (EnetPen (1/10) (1/2)) (1/20) /\ l1_weight (EnetPen (1/8) (1/4)) (1/32) /\ ridge (EnetPen (1/10) (1/2)) = 1/20 /\ ridge (EnetPen (1/8) (1/4)) = 3/32).
Proof. exact (conj (fun a r Ha Hr => conj (var_fit a r Ha Hr) (repl_fit a r Ha Hr)) (conj (fun a Ha => conj (las_fit a Ha) (repl_las a Ha)) (conj (conj var_accepted repl_accepted) (conj repl_data (conj var_settings var_weights))))). Qed.
