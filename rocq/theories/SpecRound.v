(** Vocabulary for statements about rounding: IEEE formats with [prec] bits and exponents below [emax],
    round to nearest even.  Independent of the model. *)
From Coq Require Import List ZArith Reals.
From Flocq Require Import Core BinarySingleNaN.
From Verif Require Import Arr MDatasets SpecPen.
Import ListNotations.
Open Scope R_scope.

Section Format.
Context (prec emax : Z).

(** the representable number nearest to [x], exponent unbounded above *)
Definition fl (x : R) : R := round radix2 (FLT_exp (3 - emax - prec) prec) ZnearestE x.
(** [r] is a finite float, the one nearest to [z] *)
Definition nearest (r : binary_float prec emax) (z : R) : Prop := is_finite r = true /\ B2R r = fl z.
(** unit roundoff [u] (2^-53 in double precision), and half the smallest positive float *)
Definition urd : R := bpow radix2 (- prec).
Definition tiny : R := bpow radix2 (2 - emax - prec).

Definition finite (x : binary_float prec emax) : Prop := is_finite x = true.
Definition val (l : list (binary_float prec emax)) : list R := map B2R l.
(** the real numbers stored in a design, its columns, a target, and the exact model fit X w *)
Definition colR (X : mat (binary_float prec emax)) (j : nat) : list R := map (fun r => nth j (val r) 0) (mrows X).
Definition entR (X : mat (binary_float prec emax)) (i j : nat) : R := nth i (colR X j) 0.
Definition tgtR (t : targets (binary_float prec emax)) : list R := match t with T1 y => val y | T2 Y => colR Y 0 end.
Definition fitR (X : mat (binary_float prec emax)) (w : list (binary_float prec emax)) : list R := map (fun r => dotp (val r) (val w)) (mrows X).
Definition atR (w : list (binary_float prec emax)) (j : nat) : R := nth j (val w) 0.
End Format.

(** relative error of [k] roundings: (1+u)^k - 1 *)
Definition rel (u : R) (k : nat) : R := (1 + u) ^ k - 1.
Definition rsum (l : list R) : R := fold_right Rplus 0 l.
(** inner product of absolute values *)
Fixpoint adot (a b : list R) : R := match a, b with x :: a', y :: b' => Rabs (x * y) + adot a' b' | _, _ => 0 end.

(** squared loss of a fit, and the fit after adding [c] times a column *)
Definition sq_loss (y xw : list R) : R := dotp (vminus y xw) (vminus y xw) / (2 * INR (length y)).
Fixpoint shift (xw : list R) (c : R) (x : list R) : list R :=
  match xw, x with a :: xw', b :: x' => (a + c * b) :: shift xw' c x' | _, _ => [] end.
(** the Lasso objective as a function of one coefficient, now [old]; [x] is its column *)
Definition coord_obj (y xw x : list R) (alpha old z : R) : R := sq_loss y (shift xw (z - old) x) + alpha * Rabs z.
(** Lasso objective of coefficients [w] whose fit is taken to be [xw] *)
Definition lasso_obj (y xw : list R) (alpha : R) (w : list R) : R := sq_loss y xw + alpha * rsum (map Rabs w).
