(** Vocabulary for statements about datasets which differ in some samples. *)
From Coq Require Import List Arith Reals.
From Verif Require Import RSum SpecPen SpecLin SpecData SpecOpt.
Open Scope R_scope.

(** the two datasets agree on the samples outside [C] *)
Definition same_but (n p : nat) (C : nat -> bool) (X : rmat) (y : nat -> R) (X' : rmat) (y' : nat -> R) : Prop :=
  forall i, (i < n)%nat -> C i = false -> y i = y' i /\ forall j, (j < p)%nat -> X i j = X' i j.
Definition same_but_mt (n p T : nat) (C : nat -> bool) (X Y X' Y' : rmat) : Prop :=
  forall i, (i < n)%nat -> C i = false -> (forall t, (t < T)%nat -> Y i t = Y' i t) /\ forall j, (j < p)%nat -> X i j = X' i j.
(** derivative of the loss of one sample with target [a] in its prediction [z] *)
Definition slope (l : single_loss) (a z : R) : R :=
  match l with Squared => z - a | Logistic => - a / (1 + exp (a * z)) end.
(** Euclidean length of sample [i] *)
Definition length_of (p : nat) (X : rmat) (i : nat) : R := sqrt (Sum p (fun j => X i j ^ 2)).
(** sum over the samples in [C] *)
Definition sum_changed (n : nat) (C : nat -> bool) (f : nat -> R) : R := Sum n (fun i => if C i then f i else 0).
