(** Vocabulary for statements about the shrinkage of the selected coefficients. *)
From Coq Require Import Arith Reals.
From Verif Require Import RSum SpecPen SpecLin SpecData SpecOpt.
Open Scope R_scope.

(** slope of the penalty at a coefficient of size [|x|] *)
Definition pull (k : single_pen) (x : R) : R :=
  match k with
  | LassoPen a => a
  | EnetPen a r => a * r + a * (1 - r) * Rabs x
  | McpPen a g => Rmax 0 (a - Rabs x / g)
  end.
(** [v] only uses features which [w] uses *)
Definition uses_only (p : nat) (w v : nat -> R) : Prop := forall j, (j < p)%nat -> w j = 0 -> v j = 0.
