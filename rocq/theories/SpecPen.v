(** Specification vocabulary for penalties: documented scalar penalties, Euclidean norms,
    minimisers, subdifferentials.  Independent of the model. *)
From Coq Require Import List Reals Lra.
Import ListNotations.
Open Scope R_scope.

(** scalar penalties as documented *)
Definition abs_pen (alpha u : R) : R := alpha * Rabs u.
Definition enet_pen (alpha rho u : R) : R := alpha * (rho * Rabs u + (1 - rho) / 2 * u ^ 2).
Definition mcp_pen (alpha gamma u : R) : R :=
  if Rle_dec (Rabs u) (gamma * alpha) then alpha * Rabs u - u ^ 2 / (2 * gamma)
  else gamma * alpha ^ 2 / 2.

(** [u] minimises [h], and every other point is worse by [c/2] times the squared gap *)
Definition strong_min (c : R) (h : R -> R) (u : R) : Prop :=
  forall x, h u + c / 2 * (x - u) ^ 2 <= h x.

(** proximal objective *)
Definition prox_obj (phi : R -> R) (v x : R) : R := (x - v) ^ 2 / 2 + phi x.

(** vectors *)
Fixpoint dotp (a b : list R) : R :=
  match a, b with x :: a', y :: b' => x * y + dotp a' b' | _, _ => 0 end.
Definition norm2 (a : list R) : R := sqrt (dotp a a).
Fixpoint vminus (a b : list R) : list R :=
  match a, b with x :: a', y :: b' => (x - y) :: vminus a' b' | _, _ => [] end.
Definition vscale (c : R) (a : list R) : list R := map (fun x => c * x) a.

Definition vprox_obj (phi : R -> R) (v x : list R) : R :=
  (norm2 (vminus x v)) ^ 2 / 2 + phi (norm2 x).
Definition vstrong_min (n : nat) (c : R) (h : list R -> R) (u : list R) : Prop :=
  length u = n /\
  forall x, length x = n -> h u + c / 2 * (norm2 (vminus x u)) ^ 2 <= h x.

(** [s] is a regular (Frechet) subgradient of [phi] at [w]: up to a quadratic error the affine
    map through [w] with slope [s] stays below [phi].  For convex [phi] this is the usual
    subgradient. *)
Definition subgrad (phi : R -> R) (w s : R) : Prop :=
  exists m, 0 <= m /\ forall x, phi w + s * (x - w) - m * (x - w) ^ 2 <= phi x.

(** [d] is the distance from [z] to the set [S]: a lower bound which is attained *)
Definition is_dist (S : R -> Prop) (z d : R) : Prop :=
  (forall s, S s -> d <= Rabs (z - s)) /\ (exists s, S s /\ Rabs (z - s) = d).

Definition vsubgrad (n : nat) (phi : list R -> R) (w s : list R) : Prop :=
  length s = n /\ exists m, 0 <= m /\ forall x, length x = n ->
    phi w + dotp s (vminus x w) - m * dotp (vminus x w) (vminus x w) <= phi x.
Definition is_vdist (S : list R -> Prop) (z : list R) (d : R) : Prop :=
  (forall s, S s -> d <= norm2 (vminus z s)) /\ (exists s, S s /\ norm2 (vminus z s) = d).
