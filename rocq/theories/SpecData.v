(** Specification vocabulary for datasets and datafits: how a real matrix and real targets are
    represented as program inputs, and the documented objective functions. *)
From Coq Require Import List ZArith Bool Arith Reals.
From Verif Require Import Arr MDatasets XR PBase RSum SpecLin.
Import ListNotations.
Open Scope R_scope.

(** *** representations *)

(** [t] holds the [n] real numbers [y] (one-dimensional, or two-dimensional with one column) *)
Definition single_target_of (n : nat) (y : nat -> R) (t : targets xr) : Prop :=
  t = T1 (xv n y) \/ t = T2 (xm n 1 (fun i _ => y i)).
(** [t] holds the [n] x [T] matrix [Y] *)
Definition multi_target_of (n T : nat) (Y : rmat) (t : targets xr) : Prop :=
  t = T2 (xm n T Y) \/ (T = 1%nat /\ t = T1 (xv n (fun i => Y i 0%nat))).

(** column [j] of a CSC array consists of the (row, value) pairs [es], in storage order *)
Definition csc_col (c : csc xr) (j : nat) (es : list (nat * R)) : Prop :=
  exists lo, nth_error (cindptr c) j = Some (Z.of_nat lo) /\
    nth_error (cindptr c) (S j) = Some (Z.of_nat (lo + length es)) /\
    forall k e, nth_error es k = Some e ->
      nth_error (cindices c) (lo + k) = Some (Z.of_nat (fst e)) /\
      nth_error (cdata c) (lo + k) = Some (Fin (snd e)).
(** a CSC array with [n] rows and [p] columns whose column [j] stores the pairs [E j]; repeated
    rows, any order of rows and explicit zeros are allowed *)
Definition csc_of (n p : nat) (E : nat -> list (nat * R)) (c : csc xr) : Prop :=
  length (cindptr c) = S p /\
  forall j, (j < p)%nat -> csc_col c j (E j) /\ forall e, In e (E j) -> (fst e < n)%nat.
(** the matrix it stands for (repeated entries add up) *)
Definition entry (E : nat -> list (nat * R)) (i j : nat) : R :=
  Rsum (map (fun e => if (fst e =? i)%nat then snd e else 0) (E j)).
Definition no_repeats (p : nat) (E : nat -> list (nat * R)) : Prop :=
  forall j, (j < p)%nat -> NoDup (map fst (E j)).

(** *** documented objective functions *)
Definition lin (p : nat) (X : rmat) (w : nat -> R) (i : nat) : R := Sum p (fun j => X i j * w j).
Definition lin_mt (p : nat) (X W : rmat) (i t : nat) : R := Sum p (fun j => X i j * W j t).

(** (1/2n) ||y - z||^2 *)
Definition quad_loss (n : nat) (y z : nat -> R) : R := Sum n (fun i => (y i - z i) ^ 2) / (2 * INR n).
(** (1/n) sum log (1 + exp (- y z)) *)
Definition logistic_loss (n : nat) (y z : nat -> R) : R :=
  Sum n (fun i => ln (1 + exp (- (y i * z i)))) / INR n.
(** (1/2n) ||Y - Z||_F^2 *)
Definition quad_loss_mt (n T : nat) (Y Z : rmat) : R :=
  Sum n (fun i => Sum T (fun t => (Y i t - Z i t) ^ 2)) / (2 * INR n).

(** change one coefficient *)
Definition set1 (w : nat -> R) (j : nat) (s : R) : nat -> R := fun k => if (k =? j)%nat then s else w k.
Definition set2 (W : rmat) (j t : nat) (s : R) : rmat :=
  fun k u => if (k =? j)%nat && (u =? t)%nat then s else W k u.
