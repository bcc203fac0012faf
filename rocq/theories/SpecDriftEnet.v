(** Rounding slack of the elastic net's stopping test. *)
From Coq Require Import ZArith Reals.
From Verif Require Import SpecRound.
Open Scope R_scope.

(** error of the computed penalty derivative at the coefficient [x], for strength [a] and l1 ratio [r] *)
Definition pen_slack (prec emax : Z) (a r x : R) : R :=
  rel (urd prec) 4 * (a * (r + (1 - r) * Rabs x)) + ((1 + urd prec) ^ 2 * a * tiny prec emax + tiny prec emax).
