(** Specification vocabulary for linear systems over the reals. *)
From Coq Require Import List Arith Reals.
From Verif Require Import Arr XR PBase RSum.
Open Scope R_scope.

Definition rmat := nat -> nat -> R.
(** arrays of finite values *)
Definition xm (r c : nat) (M : rmat) : mat xr := tabm r c (fun i j => Fin (M i j)).
Definition xv (n : nat) (b : nat -> R) : list xr := tab n (fun i => Fin (b i)).

Definition solves (n : nat) (A : rmat) (b x : nat -> R) : Prop :=
  forall r, (r < n)%nat -> Sum n (fun k => A r k * x k) = b r.
Definition eq_on (n : nat) (x y : nat -> R) : Prop := forall i, (i < n)%nat -> x i = y i.

(** [A = L U], [L] unit lower triangular, [U] upper triangular with nonzero diagonal
    (equivalently: all leading principal minors are nonzero) *)
Definition lu (n : nat) (A L U : rmat) : Prop :=
  (forall r k, (r < n)%nat -> (k < n)%nat -> A r k = Sum n (fun l => L r l * U l k)) /\
  (forall r, (r < n)%nat -> L r r = 1) /\ (forall r l, (r < l)%nat -> L r l = 0) /\
  (forall l, (l < n)%nat -> U l l <> 0) /\ (forall l k, (k < l)%nat -> U l k = 0).

Definition symmetric (n : nat) (A : rmat) : Prop :=
  forall r k, (r < n)%nat -> (k < n)%nat -> A r k = A k r.
Definition quad (n : nat) (A : rmat) (v : nat -> R) : R :=
  Sum n (fun r => v r * Sum n (fun k => A r k * v k)).
Definition pos_semidef (n : nat) (A : rmat) : Prop := forall v, 0 <= quad n A v.
Definition pos_def (n : nat) (A : rmat) : Prop :=
  forall v, (exists r, (r < n)%nat /\ v r <> 0) -> 0 < quad n A v.
Definition singular (n : nat) (A : rmat) : Prop :=
  exists v, (exists r, (r < n)%nat /\ v r <> 0) /\ solves n A (fun _ => 0) v.
