(** Vocabulary for how far the maintained fit strays from the exact product of design and coefficients. *)
From Coq Require Import List Arith ZArith Reals.
From Flocq Require Import Core BinarySingleNaN.
From Verif Require Import Ops Arr MDatasets MDatafits MPenalties MCd RSum SpecRound SpecData SpecTrace.
Import ListNotations.
Open Scope R_scope.

(** a move changes one coefficient by a real amount *)
Definition move : Type := nat * R.
(** total distance over which the fit of row [i] has been carried; [E] is the exact design *)
Definition travelled (E : nat -> nat -> R) (M : list move) (i : nat) : R := rsum (map (fun m => Rabs (snd m * E i (fst m))) M).

Section Drift.
Context (prec emax : Z).
Local Notation bf := (binary_float prec emax).
(** a CSC array with [n] rows and [p] columns, no row stored twice in a column; column [j] stores the
    (row, value) pairs [cs j]; and the matrix it stands for *)
Definition stores (n p : nat) (cs : nat -> list (nat * bf)) (c : csc bf) : Prop :=
  length (cindptr c) = S p /\ forall j, (j < p)%nat ->
    (exists lo, nth_error (cindptr c) j = Some (Z.of_nat lo) /\ nth_error (cindptr c) (S j) = Some (Z.of_nat (lo + length (cs j))) /\
      forall k e, nth_error (cs j) k = Some e -> nth_error (cindices c) (lo + k) = Some (Z.of_nat (fst e)) /\ nth_error (cdata c) (lo + k) = Some (snd e)) /\
    NoDup (map fst (cs j)) /\ forall e, In e (cs j) -> (fst e < n)%nat.
Definition storedR (cs : nat -> list (nat * bf)) (i j : nat) : R := rsum (map (fun e => if (fst e =? i)%nat then B2R (snd e) else 0) (cs j)).

(** error bound for row [i] after the moves [M] *)
Definition drift (E : nat -> nat -> R) (M : list move) (i : nat) : R :=
  rel (urd prec) (length M + 2) * travelled E M i + INR (length M) * (1 + urd prec) ^ length M * tiny prec emax.
(** where finite, the fit [z] is the exact fit of the coefficients [w] up to the drift of [M] *)
Definition tracks (E : nat -> nat -> R) (p n : nat) (M : list move) (s : list bf * list bf) : Prop :=
  length (snd s) = n /\ forall i x, nth_error (snd s) i = Some x -> finite prec emax x ->
    Rabs (B2R x - lin p E (atR prec emax (fst s)) i) <= drift E M i.

(** rounding slack of the stopping test for feature [j]: [y] the targets, [w] the coefficients *)
Definition slack (E : nat -> nat -> R) (p n : nat) (y w : nat -> R) (M : list move) (j : nat) : R :=
  rel (urd prec) (n + 2) * (Sum n (fun i => Rabs (E i j) * (Rabs (lin p E w i) + drift E M i + Rabs (y i))) / INR n)
  + 3 * (1 + urd prec) ^ (n + 2) * tiny prec emax + Sum n (fun i => Rabs (E i j) * drift E M i) / INR n.

Context {DM D P : Type} (o : FOps bf) (dm : DesignMatrix bf DM) (df : Datafit bf DM D) (pen : Penalty bf P) (ds : dataset DM bf) (d : D) (q : P).
(** the moves made by coordinate updates *)
Fixpoint moves (js : list nat) (s : list bf * list bf) : list move :=
  match js with
  | [] => []
  | j :: js' => match cd_step o dm df pen ds d q s j with
                | Ret s1 => (j, atR prec emax (fst s1) j - atR prec emax (fst s) j) :: moves js' s1
                | Panic _ => []
                end
  end.
(** the moves from zero to the coefficients [w] *)
Definition opening (p : nat) (w : list bf) : list move := map (fun j => (j, atR prec emax w j)) (seq 0 p).
(** all moves of a run that starts at [s0] *)
Definition history (p : nat) (js : list nat) (s0 : list bf * list bf) : list move := moves js s0 ++ opening p (fst s0).
(** a state from which a history is counted: no coefficient selected, or fit just computed *)
Definition origin (p n : nat) (s0 : list bf * list bf) : Prop := s0 = zero_state o p n \/ recomputed o dm ds p n s0.
End Drift.
