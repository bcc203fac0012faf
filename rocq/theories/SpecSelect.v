(** Vocabulary for statements about the number of selected features. *)
From Coq Require Import List Arith Lia.
From Verif Require Import Ops Arr MHyper MBlockPenalties.

(** number of coefficients, or of rows of coefficients, that are not zero *)
Definition selected {F} (o : FOps F) (w : list F) : nat := length (filter (fun x => negb (feq o x (f0 o))) w).
Definition selected_rows {F} (o : FOps F) (W : mat F) : nat := length (filter (any_nonzero o) (mrows W)).
(** bounds growing by the factor [c] with every outer iteration after the first *)
Definition budget (c ws0 k : nat) : nat := match k with O => 0 | S k => ws0 * c ^ k end.
(** a model returned by the fit has at most [n] coefficients, or rows, that are not zero *)
Definition selects_at_most {F E} (o : FOps F) (n : nat) (r : res (result (list F) E)) : Prop := forall w, r = Ret (Ok w) -> selected o w <= n.
Definition selects_rows_at_most {F E} (o : FOps F) (n : nat) (r : res (result (mat F) E)) : Prop := forall W, r = Ret (Ok W) -> selected_rows o W <= n.
