(** Vocabulary for statements about selecting only relevant features. *)
From Coq Require Import List Arith Reals.
From Verif Require Import RSum SpecPen SpecLin SpecData SpecOracle.
Open Scope R_scope.

(** what is left of column [j] after subtracting the combination [q j] of the columns in [S] *)
Definition leftover (p : nat) (X : rmat) (S : nat -> bool) (q : rmat) (i j : nat) : R := X i j - sum_in p S (fun k => q j k * X i k).
(** every column outside [S] is a combination of columns in [S] with coefficients of total size at
    most [rho], plus something orthogonal to them *)
Definition incoherent (n p : nat) (X : rmat) (S : nat -> bool) (q : rmat) (rho : R) : Prop :=
  0 <= rho /\ forall j, (j < p)%nat -> S j = false ->
    sum_in p S (fun k => Rabs (q j k)) <= rho /\
    forall k, (k < p)%nat -> S k = true -> Sum n (fun i => X i k * leftover p X S q i j) = 0.
(** largest correlation of the noise with what is left of a column outside [S] *)
Definition noise_outside (n p : nat) (X : rmat) (S : nat -> bool) (q : rmat) (e : nat -> R) (lam : R) : Prop :=
  0 <= lam /\ forall j, (j < p)%nat -> S j = false -> Rabs (Sum n (fun i => leftover p X S q i j * e i) / INR n) <= lam.
Definition noise_outside_mt (n p T : nat) (X : rmat) (S : nat -> bool) (q E : rmat) (lam : R) : Prop :=
  0 <= lam /\ forall j, (j < p)%nat -> S j = false -> norm2 (map (fun t => Sum n (fun i => leftover p X S q i j * E i t) / INR n) (seq 0 T)) <= lam.
