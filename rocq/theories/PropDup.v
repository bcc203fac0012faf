(** Property theorems C106: redundant columns.  Exact arithmetic; column [j'] is [b] times column [j]. *)
From Coq Require Import List ZArith Bool Arith Reals.
From Verif Require Import Ops Arr MUtils MDatasets MHyper MEstimators XR RSum SpecPen SpecLin SpecData PDataEx SpecSolve PLaws SpecOpt SpecBudget PDup POptEx PSensEx PColsEx PDupEx.
Import ListNotations.
Open Scope R_scope.

(** proportional columns never get opposite signs, and the Lasso does not select a shrunken copy *)
Theorem C106_proportional_columns srt (VS : valid_sort xops srt) n p (Hn : (1 <= n)%nat) X y l k c s fit t j j' b :
  single_fit srt n p X y l k s fit -> targets_ok l n y -> l1_weight k c -> accepted fit -> s_tolerance s = Fin t -> 0 < t ->
  (1 <= s_ws_start_size s)%nat /\ (1 <= s_max_epochs s)%nat /\ calm_schedule (s_use_acceleration s) (s_K s) (s_max_epochs s) /\
     accel_safe (s_use_acceleration s) (s_K s) (Nat.min (s_ws_start_size s) p) (s_max_epochs s) ->
  (j < p)%nat -> (j' < p)%nat -> (forall i, (i < n)%nat -> X i j' = b * X i j) ->
  exists N w, (forall m, (N <= m)%nat -> fit m = Ret (Ok (xv p w))) /\
    (0 <= b -> t < c -> 0 <= w j * w j') /\ (k = LassoPen c -> Rabs b * (c + t) < c - t -> w j' = 0).
Proof. exact (c106_multiples srt VS n p Hn X y l k c s fit t j j' b). Qed.
Print Assumptions C106_proportional_columns.
(** leaving out one of two equal columns: the other one takes over its coefficient *)
Theorem C106_duplicate_column srt srt' (VS : valid_sort xops srt) (VS' : valid_sort xops srt') n p (Hn : (1 <= n)%nat) kept (ND : NoDup kept) j j'
    (Hj : (j < p)%nat) (Hj' : (j' < p)%nat) (Njj : j <> j') (HK : forall q, In q kept <-> (q < p)%nat /\ q <> j') X y l a s s' fit fit' t t' :
  let p' := length kept in let X' := fun i q => X i (nth q kept 0%nat) in
  single_fit srt n p X y l (LassoPen a) s fit -> single_fit srt' n p' X' y l (LassoPen a) s' fit' -> targets_ok l n y -> accepted fit -> accepted fit' ->
  s_tolerance s = Fin t -> s_tolerance s' = Fin t' -> 0 < t -> 0 < t' ->
  (forall q d, In (q, d) [(s, p); (s', p')] -> (1 <= s_ws_start_size q)%nat /\ (1 <= s_max_epochs q)%nat /\ calm_schedule (s_use_acceleration q) (s_K q) (s_max_epochs q) /\
     accel_safe (s_use_acceleration q) (s_K q) (Nat.min (s_ws_start_size q) d) (s_max_epochs q)) ->
  (forall i, (i < n)%nat -> X i j' = X i j) -> t < a ->
  exists N w v, (forall m, (N <= m)%nat -> fit m = Ret (Ok (xv p w)) /\ fit' m = Ret (Ok (xv p' v))) /\
    0 <= w j * w j' /\
    let u q := if Nat.eqb q j then w j + w j' else w q in let D := Sum p' (fun q => Rabs (u (nth q kept 0%nat) - v q)) in
    (objective (loss1 l n y) p X (pen1 (LassoPen a)) w <= objective (loss1 l n y) p' X' (pen1 (LassoPen a)) v + t * D /\
     objective (loss1 l n y) p' X' (pen1 (LassoPen a)) v <= objective (loss1 l n y) p X (pen1 (LassoPen a)) w + t' * D) /\
    (l = Squared -> Sum n (fun i => (lin p X w i - lin p' X' v i) ^ 2) / INR n <= (t + t') * D).
Proof. exact (c106_duplicate srt srt' VS VS' n p Hn kept ND j j' Hj Hj' Njj HK X y l a s s' fit fit' t t'). Qed.
Print Assumptions C106_duplicate_column.
(** a Lasso on three columns, the second equal to the first and the third half of it *)
Example C106_nonvacuous :
  single_fit (dsort xops) 3 3 dupX oy Squared (LassoPen (1/10)) (settings (opr 0 0)) (fit_dup (1/10)) /\
  single_fit (dsort xops) 3 (length once) (fun i q => dupX i (nth q once 0%nat)) oy Squared (LassoPen (1/10)) (settings kpr) (fit_once (1/10)) /\
  (accepted (fit_dup (1/10)) /\ accepted (fit_once (1/10))) /\
  (let s := settings (opr 0 0) in let s' := settings kpr in s_tolerance s = Fin (1/100) /\ s_tolerance s' = Fin (1/100) /\
   forall q d, In (q, d) [(s, 3%nat); (s', length once)] -> (1 <= s_ws_start_size q)%nat /\ (1 <= s_max_epochs q)%nat /\ calm_schedule (s_use_acceleration q) (s_K q) (s_max_epochs q) /\
     accel_safe (s_use_acceleration q) (s_K q) (Nat.min (s_ws_start_size q) d) (s_max_epochs q)) /\
  ((forall i, (i < 3)%nat -> dupX i 1%nat = dupX i 0%nat) /\ (forall i, (i < 3)%nat -> dupX i 2%nat = 1/2 * dupX i 0%nat) /\ dupX 2%nat 0%nat = 2 /\
   (Rabs (1/2) * (1/10 + 1/100) < 1/10 - 1/100 /\ 1/100 < 1/10) /\ NoDup once /\ forall q, In q once <-> (q < 3)%nat /\ q <> 1%nat).
Proof. exact (conj (dup_fit _ tenth_nonneg) (conj (once_fit _ tenth_nonneg) (conj (dup_accepted _) (conj keep_settings dup_columns)))). Qed.
