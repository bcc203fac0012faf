(** Vocabulary for statements about iteration budgets. *)
From Coq Require Import List Arith Reals.
From Verif Require Import Ops Arr MHyper XR RSum SpecPen SpecLin SpecData SpecOpt.
Open Scope R_scope.

(** mean square of a column *)
Definition mean_square (n : nat) (X : rmat) (j : nat) : R := Sum n (fun i => X i j ^ 2) / INR n.
Definition nonzero_column (n : nat) (X : rmat) (j : nat) : Prop := exists i, (i < n)%nat /\ X i j <> 0.
(** curvature along one coefficient of the loss (at most [L]) together with the penalty *)
Definition total_curvature (k : single_pen) (L : R) : R :=
  match k with LassoPen _ => L | EnetPen a r => L + a * (1 - r) | McpPen _ g => L - / g end.
(** weight of the squared part of the penalty *)
Definition ridge (k : single_pen) : R := match k with EnetPen a r => a * (1 - r) | _ => 0 end.

(** budgets of [N] and more iterations all return the same coefficients, and they satisfy [Q] *)
Definition settles_by {E} (N p : nat) (Q : (nat -> R) -> Prop) (fit : nat -> res (result (list xr) E)) : Prop :=
  exists w, Q w /\ forall m, (N <= m)%nat -> fit m = Ret (Ok (xv p w)).
Definition settles_by_mt {E} (N p T : nat) (Q : rmat -> Prop) (fit : nat -> res (result (mat xr) E)) : Prop :=
  exists W, Q W /\ forall m, (N <= m)%nat -> fit m = Ret (Ok (xm p T W)).
