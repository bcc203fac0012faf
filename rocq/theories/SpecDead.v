(** Vocabulary for statements about columns that carry no information. *)
From Coq Require Import List ZArith Bool Arith.
From Verif Require Import Ops Arr MDatasets SpecSolve SpecNan.
Local Open Scope nat_scope.

(** column [j] contains a NaN, or nothing but zeros *)
Definition dead_column {F} (o : FOps F) (X : mat F) (j : nat) : Prop :=
  nan_column o X j \/ forall r x, In r (mrows X) -> nth_error r j = Some x -> feq o x (f0 o) = true.
Definition dead_column_csc {F} (o : FOps F) (X : csc F) (j : nat) : Prop :=
  nan_column_csc o X j \/ forall lo hi k x, nth_error (cindptr X) j = Some lo -> nth_error (cindptr X) (S j) = Some hi -> (lo <= k < hi)%Z ->
    nth_error (cdata X) (Z.to_nat k) = Some x -> feq o x (f0 o) = true.

(** two designs that differ at most in the columns listed in [D] *)
Definition differ_only {F} (D : list nat) (X X' : mat F) : Prop :=
  forall i r r' j, nth_error (mrows X) i = Some r -> nth_error (mrows X') i = Some r' -> ~ In j D -> nth_error r j = nth_error r' j.
Definition differ_only_csc {F} (D : list nat) (X X' : csc F) : Prop :=
  cindptr X = cindptr X' /\ cindices X = cindices X' /\
  forall j lo hi k, ~ In j D -> nth_error (cindptr X) j = Some lo -> nth_error (cindptr X) (S j) = Some hi -> (lo <= k < hi)%Z ->
    nth_error (cdata X) (Z.to_nat k) = nth_error (cdata X') (Z.to_nat k).

(** how zero spreads through the operations; holds for the reals with NaN and for IEEE floats *)
Record zero_spreads {F} (o : FOps F) : Prop := {
  zs_dot : forall a b, length a = length b -> Forall (fun x => feq o x (f0 o) = true) a -> zero_or_nan o (ndot o a b);
  zs_add : forall x y, zero_or_nan o x -> zero_or_nan o y -> zero_or_nan o (fadd o x y) /\ zero_or_nan o (fsub o x y);
  zs_mul : forall x y, zero_or_nan o x -> zero_or_nan o (fmul o x y) /\ zero_or_nan o (fdiv o x y);
  zs_neg : forall x, zero_or_nan o x -> zero_or_nan o (fneg o x);
  zs_score : forall x a, zero_or_nan o x -> fisneg o a = false -> fmax o (f0 o) (fsub o (fabs o x) a) = f0 o;
  zs_zero : feq o (f0 o) (f0 o) = true /\ feq o (fsub o (f0 o) (f0 o)) (f0 o) = true
}.
