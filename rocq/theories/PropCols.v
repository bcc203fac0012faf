(** Property theorems C104: fits on some of the columns.  Exact arithmetic; [kept] lists the kept
    columns, in any order, and column [j] of the smaller design is column [nth j kept 0] of [X]. *)
From Coq Require Import List ZArith Bool Arith Reals.
From Verif Require Import Ops Arr MUtils MDatasets MHyper MEstimators XR RSum SpecPen SpecLin SpecData PDataEx SpecSolve PLaws SpecOpt SpecBudget PCols POptEx PSensEx PColsEx.
Import ListNotations.
Open Scope R_scope.

(** refitting on the selected columns, or on a superset of them, gives the same model up to the tolerances *)
Theorem C104_unselected_columns n p (Hn : (1 <= n)%nat) kept X y l k srt srt' (VS : valid_sort xops srt) (VS' : valid_sort xops srt') c s s' fit fit' t t' :
  let p' := length kept in let X' := fun i j => X i (nth j kept 0%nat) in
  NoDup kept -> (forall j, In j kept -> (j < p)%nat) ->
  single_fit srt n p X y l k s fit -> single_fit srt' n p' X' y l k s' fit' -> targets_ok l n y -> l1_weight k c -> accepted fit -> accepted fit' ->
  s_tolerance s = Fin t -> s_tolerance s' = Fin t' -> 0 < t -> 0 < t' ->
  (forall q d, In (q, d) [(s, p); (s', p')] -> (1 <= s_ws_start_size q)%nat /\ (1 <= s_max_epochs q)%nat /\ calm_schedule (s_use_acceleration q) (s_K q) (s_max_epochs q) /\
     accel_safe (s_use_acceleration q) (s_K q) (Nat.min (s_ws_start_size q) d) (s_max_epochs q)) ->
  exists N w v, (forall m, (N <= m)%nat -> fit m = Ret (Ok (xv p w)) /\ fit' m = Ret (Ok (xv p' v))) /\
    ((forall j, (j < p)%nat -> ~ In j kept -> w j = 0) ->
     let D := Sum p' (fun j => Rabs (w (nth j kept 0%nat) - v j)) in
     (objective (loss1 l n y) p X (pen1 k) w <= objective (loss1 l n y) p' X' (pen1 k) v + t * D /\
      objective (loss1 l n y) p' X' (pen1 k) v <= objective (loss1 l n y) p X (pen1 k) w + t' * D) /\
     (0 < ridge k -> ridge k * sqrt (Sum p' (fun j => (w (nth j kept 0%nat) - v j) ^ 2)) <= sqrt (INR p') * (t + t')) /\
     (l = Squared -> Sum n (fun i => (lin p X w i - lin p' X' v i) ^ 2) / INR n <= (t + t') * D)).
Proof. exact (fun ND LT => c104_dropped n p Hn kept ND LT X y l k srt srt' VS VS' c s s' fit fit' t t'). Qed.
Print Assumptions C104_unselected_columns.
(** more columns: no model [v] of some of them beats the fit on all of them by more than the tolerance allows *)
Theorem C104_added_columns n p (Hn : (1 <= n)%nat) kept X y l k srt (VS : valid_sort xops srt) c s fit t :
  let p' := length kept in let X' := fun i j => X i (nth j kept 0%nat) in
  NoDup kept -> (forall j, In j kept -> (j < p)%nat) -> targets_ok l n y -> l1_weight k c -> single_fit srt n p X y l k s fit -> accepted fit ->
  s_tolerance s = Fin t -> 0 < t ->
  (1 <= s_ws_start_size s)%nat /\ (1 <= s_max_epochs s)%nat /\ calm_schedule (s_use_acceleration s) (s_K s) (s_max_epochs s) /\
     accel_safe (s_use_acceleration s) (s_K s) (Nat.min (s_ws_start_size s) p) (s_max_epochs s) ->
  exists N w, (forall m, (N <= m)%nat -> fit m = Ret (Ok (xv p w))) /\
    forall v, objective (loss1 l n y) p X (pen1 k) w <= objective (loss1 l n y) p' X' (pen1 k) v +
      t * (Sum p' (fun j => Rabs (w (nth j kept 0%nat) - v j)) + Sum p (fun j => if in_dec Nat.eq_dec j kept then 0 else Rabs (w j))).
Proof. exact (fun ND LT => c104_added n p Hn kept ND LT X y l k srt VS c s fit t). Qed.
Print Assumptions C104_added_columns.
(** a Lasso on three columns, the third unselected; the other two kept in reverse order *)
Example C104_nonvacuous : (NoDup keep /\ forall j, In j keep -> (j < 3)%nat) /\
  single_fit (dsort xops) 3 3 (entry exE) oy Squared (LassoPen (1/10)) (settings (opr 0 0)) (fit_las (1/10)) /\
  single_fit (dsort xops) 3 (length keep) (fun i j => entry exE i (nth j keep 0%nat)) oy Squared (LassoPen (1/10)) (settings kpr) (fit_keep (1/10)) /\
  (accepted (fit_las (1/10)) /\ accepted (fit_keep (1/10))) /\ l1_weight (LassoPen (1/10)) (1/10) /\
  (let s := settings (opr 0 0) in let s' := settings kpr in s_tolerance s = Fin (1/100) /\ s_tolerance s' = Fin (1/100) /\
   forall q d, In (q, d) [(s, 3%nat); (s', length keep)] -> (1 <= s_ws_start_size q)%nat /\ (1 <= s_max_epochs q)%nat /\ calm_schedule (s_use_acceleration q) (s_K q) (s_max_epochs q) /\
     accel_safe (s_use_acceleration q) (s_K q) (Nat.min (s_ws_start_size q) d) (s_max_epochs q)) /\
  (forall N w, (forall m, (N <= m)%nat -> fit_las (1/10) m = Ret (Ok (xv 3 w))) -> forall j, (j < 3)%nat -> ~ In j keep -> w j = 0).
Proof. exact (conj keep_ok (conj (las_fit _ tenth_nonneg) (conj (keep_fit _ tenth_nonneg) (conj (conj (proj2 var_accepted _) (keep_accepted _)) (conj eq_refl (conj keep_settings keep_zero)))))). Qed.
