(** Property theorems C102: two floating-point fits of the same data agree.  The formats, storage forms,
    solver settings and sorting routines may differ; [float_fit] is a call of [fit] that returned. *)
From Coq Require Import List ZArith Bool Arith Reals.
From Flocq Require Import Core BinarySingleNaN.
From Verif Require Import Ops Arr MHyper IEEE RSum SpecPen SpecRound SpecData SpecSolve SpecOpt SpecBudget SpecAgree PAgree PAgreeEx PTraceEx PTraceEnetEx.
Import ListNotations.
Local Open Scope R_scope.

Theorem C102_two_floating_fits prec emax Hp Hm m prec' emax' Hp' Hm' m' n p E y k k' v v' w w' C C' : (0 < n)%nat ->
  float_fit prec emax Hp Hm m n p E y k v w C -> float_fit prec' emax' Hp' Hm' m' n p E y k' v' w' C' ->
  let a := atR prec emax w in let b := atR prec' emax' w' in
  exists N W N' W', C N W /\ C' N' W' /\
    (N = p_max_iterations v \/ N' = p_max_iterations v' \/ forall e e', W e -> W' e' ->
      Sum n (fun i => (lin p E a i - lin p E b i) ^ 2) / INR n <=
        (e + e' + Rabs (weight1 k - weight1 k')) * Sum p (fun j => Rabs (a j - b j)) + Rabs (ridge k - ridge k') * Sum p (fun j => Rabs (b j) * Rabs (a j - b j)) /\
      (0 < ridge k -> ridge k * sqrt (Sum p (fun j => (a j - b j) ^ 2)) <=
        sqrt (INR p) * (e + e' + Rabs (weight1 k - weight1 k')) + Rabs (ridge k - ridge k') * sqrt (Sum p (fun j => b j ^ 2)))).
Proof. exact (c102 prec emax Hp Hm m prec' emax' Hp' Hm' m' n p E y k k' v v' w w' C C'). Qed.
Print Assumptions C102_two_floating_fits.
(** hyperparameters with the same exact values *)
Theorem C102_same_hyperparameters prec emax Hp Hm m prec' emax' Hp' Hm' m' n p E y k v v' w w' C C' : (0 < n)%nat ->
  float_fit prec emax Hp Hm m n p E y k v w C -> float_fit prec' emax' Hp' Hm' m' n p E y k v' w' C' ->
  let a := atR prec emax w in let b := atR prec' emax' w' in
  exists N W N' W', C N W /\ C' N' W' /\
    (N = p_max_iterations v \/ N' = p_max_iterations v' \/ forall e e', W e -> W' e' ->
      Sum n (fun i => (lin p E a i - lin p E b i) ^ 2) / INR n <= (e + e') * Sum p (fun j => Rabs (a j - b j)) /\
      (0 < ridge k -> ridge k * sqrt (Sum p (fun j => (a j - b j) ^ 2)) <= sqrt (INR p) * (e + e'))).
Proof. exact (c102_same prec emax Hp Hm m prec' emax' Hp' Hm' m' n p E y k v v' w w' C C'). Qed.
Print Assumptions C102_same_hyperparameters.
(** one round of five used, nonzero models: a single-precision elastic net on a dense matrix, a
    double-precision one on a compressed matrix, and a double-precision Lasso, on the same data *)
Example C102_nonvacuous :
  (exists k w C, float_fit 24 128 Hprec32 Hmax32 libm32 3 2 agE agy k spr w C /\ 0 < ridge k /\ nonzero ops32 w 0 /\ exists W e, C 1%nat W /\ W e) /\
  (exists k w C, float_fit 53 1024 Hprec64 Hmax64 libm64 3 2 agE agy k epr w C /\ nonzero ops64 w 0 /\ exists W e, C 1%nat W /\ W e) /\
  (exists k w C, float_fit 53 1024 Hprec64 Hmax64 libm64 3 2 agE agy k cpr w C /\ nonzero ops64 w 0 /\ exists W e, C 1%nat W /\ W e) /\
  (p_max_iterations spr = 5 /\ p_max_iterations epr = 5 /\ p_max_iterations cpr = 5)%nat.
Proof. exact (conj ex_agree32 (conj ex_agree64 (conj ex_agree64l (conj eq_refl (conj eq_refl eq_refl))))). Qed.
