(** Specification vocabulary for the synthetic data of [python/sparseglm/utils.py] and of
    [utils::test_helpers]. *)
From Coq Require Import List ZArith Bool Arith Reals.
From Verif Require Import Arr MDatasets MPyUtils XR PBase RSum SpecLin SpecData.
Import ListNotations.
Open Scope R_scope.

(** [int(x)] of a non-negative finite float *)
Definition xint (x : xr) : nat := match x with Fin r => Z.to_nat (Int_part r) | _ => 0%nat end.

(** Frobenius norm *)
Definition frob (n T : nat) (E : rmat) : R := sqrt (Sum n (fun i => Sum T (fun t => E i t ^ 2))).

(** all draws are finite: [G], [V] and [N] are the values behind the design, the coefficients and
    the noise; [rng.choice] returns distinct indices in range, as many as requested *)
Definition finite_draws (d : draws xr) (G V N : rmat) : Prop :=
  (forall j i, d_x d j i = Fin (G j i)) /\ (forall k t, d_w d k t = Fin (V k t)) /\ (forall i t, d_noise d i t = Fin (N i t)).
Definition fair_choice (d : draws xr) : Prop :=
  forall n k, (k <= n)%nat -> length (d_choice d n k) = k /\ NoDup (d_choice d n k) /\ forall s, In s (d_choice d n k) -> (s < n)%nat.

(** an array returned for the [n] x [T] matrix [M]: one-dimensional for one task *)
Definition returned (n T : nat) (M : rmat) (t : targets xr) : Prop :=
  t = if (T =? 1)%nat then T1 (xv n (fun i => M i 0%nat)) else T2 (xm n T M).

Definition distance (j k : nat) : nat := (j - k) + (k - j).
(** row [i] of the flat array [l] holds the [k] values [M i 0], ..., [M i (k - 1)] *)
Definition flattened (n k : nat) (M : rmat) (l : list xr) : Prop :=
  length l = (n * k)%nat /\ forall i t, (i < n)%nat -> (t < k)%nat -> nth_error l (i * k + t) = Some (Fin (M i t)).
