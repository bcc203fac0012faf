(** Vocabulary for statements about second moments of the data. *)
From Coq Require Import List Arith Reals.
From Verif Require Import XR SpecPen RSum SpecLin SpecData SpecOpt.
Open Scope R_scope.

(** mean of the products of two columns, and of a column with the targets *)
Definition moment (n : nat) (X : rmat) (j k : nat) : R := Sum n (fun i => X i j * X i k) / INR n.
Definition cross (n : nat) (X : rmat) (y : nat -> R) (j : nat) : R := Sum n (fun i => X i j * y i) / INR n.
(** the same second moments, but the squares of the columns of [X'] are larger by [b] *)
Definition moments_shifted (b : R) (p n : nat) (X : rmat) (y : nat -> R) (n' : nat) (X' : rmat) (y' : nat -> R) : Prop :=
  forall j, (j < p)%nat -> (forall k, (k < p)%nat -> moment n' X' j k = moment n X j k + if (j =? k)%nat then b else 0) /\ cross n' X' y' j = cross n X y j.
Definition same_moments (p n : nat) (X : rmat) (y : nat -> R) (n' : nat) (X' : rmat) (y' : nat -> R) : Prop :=
  forall j, (j < p)%nat -> (forall k, (k < p)%nat -> moment n' X' j k = moment n X j k) /\ cross n' X' y' j = cross n X y j.
Definition same_moments_mt (p T n : nat) (X Y : rmat) (n' : nat) (X' Y' : rmat) : Prop :=
  forall t, (t < T)%nat -> same_moments p n X (fun i => Y i t) n' X' (fun i => Y' i t).
(** [k'] is [k] without [b] halves of the square of the coefficient *)
Definition less_ridge (b : R) (k k' : single_pen) : Prop := forall u, pen1 k u = pen1 k' u + b / 2 * u ^ 2.
(** every sample of the new data is a mixture [Q r] of the old ones; means of products stay the same (an orthogonal matrix, if the number of samples stays the same) *)
Definition preserves_means (n' n : nat) (Q : rmat) : Prop :=
  forall i j, (i < n)%nat -> (j < n)%nat -> Sum n' (fun r => Q r i * Q r j) / INR n' = if (i =? j)%nat then 1 / INR n else 0.
Definition mix (n : nat) (Q X : rmat) : rmat := fun r j => Sum n (fun i => Q r i * X i j).
Definition mix1 (n : nat) (Q : rmat) (y : nat -> R) : nat -> R := fun r => Sum n (fun i => Q r i * y i).
(** one further sample per feature, with target zero; all samples in a unit in which the means stay the same *)
Definition unit_change (n p : nat) : R := sqrt (INR (n + p) / INR n).
Definition augmented_design (n p : nat) (b : R) (X : rmat) : rmat :=
  fun i j => unit_change n p * (if (i <? n)%nat then X i j else if (i =? n + j)%nat then sqrt (INR n * b) else 0).
Definition augmented_targets (n p : nat) (y : nat -> R) : nat -> R := fun i => unit_change n p * (if (i <? n)%nat then y i else 0).
