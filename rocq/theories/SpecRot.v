(** Vocabulary for statements about combining the tasks. *)
From Coq Require Import List Arith Reals.
From Verif Require Import Ops Arr XR RSum SpecLin SpecOpt.
Open Scope R_scope.

(** the [T x T'] matrix [Q] has orthonormal rows (a rotation of the tasks if [T = T'], e.g. any
    reordering or sign change of tasks; with [T < T'], e.g. additional tasks with zero targets) *)
Definition isometry (T T' : nat) (Q : rmat) : Prop :=
  forall u v, (u < T)%nat -> (v < T)%nat -> Sum T' (fun t => Q u t * Q v t) = if (u =? v)%nat then 1 else 0.
(** the product [A Q] *)
Definition mixed (T : nat) (A Q : rmat) : rmat := fun i t => Sum T (fun u => A i u * Q u t).
