(** Vocabulary for statements about special and limiting settings of the estimators. *)
From Coq Require Import List Arith Reals.
From Verif Require Import Ops Arr XR RSum SpecLin SpecOpt SpecPath.
Open Scope R_scope.

(** how much the correlations of two features with any residuals can differ *)
Definition column_gap (l : single_loss) (n : nat) (X : rmat) (y : nat -> R) (j k : nat) : R :=
  match l with
  | Squared => rms n (fun i => X i j - X i k) * rms n y
  | Logistic => Sum n (fun i => Rabs (X i j - X i k)) / INR n
  end.
(** the equations of regression with [b / 2] times the sum of squares as the only penalty, up to [t] *)
Definition solves_equations (t : R) (l : single_loss) (n p : nat) (X : rmat) (y : nat -> R) (b : R) (w : nat -> R) : Prop :=
  forall j, (j < p)%nat -> Rabs (correlation l n p X y w j - b * w j) <= t.
