(** Vocabulary for datasets whose design matrix and targets do not belong together. *)
From Coq Require Import List ZArith Bool Arith.
From Verif Require Import Ops Arr MDatasets MHyper.
Import ListNotations.

(** some stored entry of a compressed-column matrix has no row among [n] samples *)
Definition entry_outside {F} (n : nat) (c : csc F) : Prop :=
  exists j lo hi q, nth_error (cindptr c) j = Some lo /\ nth_error (cindptr c) (S j) = Some hi /\ (lo <= q < hi)%Z /\
    forall i, (0 <= q)%Z -> nth_error (cindices c) (Z.to_nat q) = Some i -> (i < 0 \/ Z.of_nat n <= i)%Z.
(** the parameters are refused or the fit panics with [k]: no model is returned *)
Definition refused {F P A} (k : panic) (check : P -> result P (estimator_error F)) (pr : P) (r : res (result A (estimator_error F))) : Prop :=
  r = match check pr with Err e => Ret (Err e) | Ok _ => Panic k end.
(** two axis lengths that agree, or one of them is one: that axis is repeated *)
Definition repeatable (a b : nat) : Prop := a = b \/ a = 1 \/ b = 1.
(** the entry standing at place [i] when an axis of length [a] is repeated if [a] is one *)
Definition repeated (a i : nat) : nat := if a =? 1 then 0 else i.
