(** Vocabulary for statements relating two fits. *)
From Coq Require Import List Arith Reals Permutation.
From Verif Require Import Ops Arr MHyper XR RSum SpecLin.
Import ListNotations.
Open Scope R_scope.

(** [s] rearranges the rows [0 .. n-1] *)
Definition row_perm (n : nat) (s : nat -> nat) : Prop := Permutation (map s (seq 0 n)) (seq 0 n).
(** [s] is a choice of signs for the first [p] columns *)
Definition signs (p : nat) (s : nat -> R) : Prop := forall j, (j < p)%nat -> s j = 1 \/ s j = -1.
(** a vector as a one-column matrix *)
Definition column {F} (w : list F) : mat F := Mat (length w) 1 (map (fun x => [x]) w).
Definition map_ok {A B E} (f : A -> B) (r : result A E) : result B E :=
  match r with Ok a => Ok (f a) | Err e => Err e end.
(** two fits of single-task models: both rejected with the same error, or [w] and [w'] with
    [w' j = s j * w j] *)
Definition fits_flip {E} (p : nat) (s : nat -> R) (r r' : res (result (list xr) E)) : Prop :=
  (exists e, r = Ret (Err e) /\ r' = Ret (Err e)) \/
  (exists w, r = Ret (Ok (xv p w)) /\ r' = Ret (Ok (xv p (fun j => s j * w j)))).
Definition fits_flip_mt {E} (p T : nat) (s : nat -> R) (r r' : res (result (mat xr) E)) : Prop :=
  (exists e, r = Ret (Err e) /\ r' = Ret (Err e)) \/
  (exists W, r = Ret (Ok (xm p T W)) /\ r' = Ret (Ok (xm p T (fun j t => s j * W j t)))).
