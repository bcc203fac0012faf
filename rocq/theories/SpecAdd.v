(** Vocabulary for statements about added samples. *)
From Coq Require Import Arith Reals.
From Verif Require Import RSum SpecPen SpecLin SpecData SpecOpt.
Open Scope R_scope.

(** the first [n] samples of the two datasets agree *)
Definition same_first (n p : nat) (X : rmat) (y : nat -> R) (X' : rmat) (y' : nat -> R) : Prop :=
  forall i, (i < n)%nat -> y i = y' i /\ forall j, (j < p)%nat -> X i j = X' i j.
(** by how much averages of [f >= 0] over [n] and over [n + m] samples can differ: what the [m] added
    samples contribute and what the others lose *)
Definition reweighed (n m : nat) (f : nat -> R) : R :=
  (Sum m (fun i => f (n + i)%nat) + INR m / INR n * Sum n f) / INR (n + m).
