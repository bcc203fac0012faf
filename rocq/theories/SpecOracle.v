(** Vocabulary for statements about recovering the coefficients which generated the targets. *)
From Coq Require Import List Arith Reals.
From Verif Require Import RSum SpecPen SpecLin SpecData.
Open Scope R_scope.

(** the targets are those of the linear model [beta], up to [e] *)
Definition generated (n p : nat) (X : rmat) (y beta e : nat -> R) : Prop := forall i, (i < n)%nat -> y i = lin p X beta i + e i.
Definition generated_mt (n p T : nat) (X Y Be E : rmat) : Prop := forall i t, (i < n)%nat -> (t < T)%nat -> Y i t = lin_mt p X Be i t + E i t.
(** largest correlation of a column with the noise *)
Definition noise_level (n p : nat) (X : rmat) (e : nat -> R) (lam : R) : Prop := 0 <= lam /\ forall j, (j < p)%nat -> Rabs (Sum n (fun i => X i j * e i) / INR n) <= lam.
Definition noise_level_mt (n p T : nat) (X E : rmat) (lam : R) : Prop := 0 <= lam /\ forall j, (j < p)%nat -> norm2 (map (fun t => Sum n (fun i => X i j * E i t) / INR n) (seq 0 T)) <= lam.
Definition support_in (p : nat) (S : nat -> bool) (beta : nat -> R) : Prop := forall j, (j < p)%nat -> S j = false -> beta j = 0.
Definition support_in_mt (p T : nat) (S : nat -> bool) (Be : rmat) : Prop := forall j t, (j < p)%nat -> (t < T)%nat -> S j = false -> Be j t = 0.
Definition size_of (p : nat) (S : nat -> bool) : R := INR (length (filter S (seq 0 p))).
Definition sum_in (p : nat) (S : nat -> bool) (f : nat -> R) : R := Sum p (fun j => if S j then f j else 0).
Definition sum_out (p : nat) (S : nat -> bool) (f : nat -> R) : R := Sum p (fun j => if S j then 0 else f j).
(** mean squared prediction of a coefficient vector *)
Definition msp (n p : nat) (X : rmat) (d : nat -> R) : R := Sum n (fun i => lin p X d i ^ 2) / INR n.
Definition msp_mt (n p T : nat) (X D : rmat) : R := Sum n (fun i => Sum T (fun t => lin_mt p X D i t ^ 2)) / INR n.
(** restricted eigenvalue condition: directions mostly within [S] are visible in the predictions *)
Definition restricted_eigenvalue (n p : nat) (X : rmat) (S : nat -> bool) (kappa : R) : Prop :=
  forall d, sum_out p S (fun j => Rabs (d j)) <= 3 * sum_in p S (fun j => Rabs (d j)) -> kappa * sum_in p S (fun j => d j ^ 2) <= msp n p X d.
Definition restricted_eigenvalue_mt (n p T : nat) (X : rmat) (S : nat -> bool) (kappa : R) : Prop :=
  forall D : rmat, let r j := norm2 (map (D j) (seq 0 T)) in sum_out p S r <= 3 * sum_in p S r -> kappa * sum_in p S (fun j => r j ^ 2) <= msp_mt n p T X D.
