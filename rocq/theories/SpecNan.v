(** Vocabulary for statements about NaN entries of a dense design matrix. *)
From Coq Require Import List ZArith Bool Arith.
From Verif Require Import Ops Arr MDatasets SpecSolve.
Local Open Scope nat_scope.

(** column [j] has a NaN entry *)
Definition nan_column {F} (o : FOps F) (X : mat F) (j : nat) : Prop :=
  exists r x, In r (mrows X) /\ nth_error r j = Some x /\ fisnan o x = true.
(** column [j] of a compressed-column matrix stores a NaN *)
Definition nan_column_csc {F} (o : FOps F) (X : csc F) (j : nat) : Prop :=
  exists lo hi k x, nth_error (cindptr X) j = Some lo /\ nth_error (cindptr X) (S j) = Some hi /\ (0 <= k)%Z /\ (lo <= k < hi)%Z /\
    nth_error (cdata X) (Z.to_nat k) = Some x /\ fisnan o x = true.
(** negation, exponential and logarithm keep NaN *)
Definition exp_log_nan {F} (o : FOps F) : Prop := forall x, fisnan o x = true ->
  fisnan o (fneg o x) = true /\ fisnan o (fexp o x) = true /\ forall b, fisnan o (flog o x b) = true.
(** the mean square of column [j], computed in the arithmetic *)
Definition mean_square {F} (o : FOps F) (X : mat F) (j : nat) : F :=
  let c := map (fun r => nth j r (f0 o)) (mrows X) in fdiv o (ndot o c c) (fcast o (mnr X)).
Definition zero_or_nan {F} (o : FOps F) (x : F) : Prop := feq o x (f0 o) = true \/ fisnan o x = true.

(** how NaN spreads through the operations; holds for the reals with NaN and for IEEE floats *)
Record nan_spreads {F} (o : FOps F) : Prop := {
  sp_ndot : forall a b x, length a = length b -> In x a \/ In x b -> fisnan o x = true -> fisnan o (ndot o a b) = true;
  sp_gdot : forall a b x, length a = length b -> In x a \/ In x b -> fisnan o x = true -> fisnan o (gdot o a b) = true;
  sp_sums : forall l x, In x l -> fisnan o x = true -> fisnan o (isum o l) = true /\ fisnan o (nsum o l) = true;
  sp_ops : forall x y, fisnan o x = true \/ fisnan o y = true ->
    fisnan o (fadd o x y) = true /\ fisnan o (fsub o x y) = true /\ fisnan o (fmul o x y) = true /\ fisnan o (fdiv o x y) = true;
  sp_fun : forall x, fisnan o x = true -> fisnan o (fsignum o x) = true /\ fisnan o (fsqrt o x) = true /\ fisnan o (fabs o x) = true;
  sp_cmp : forall x y, fisnan o x = true \/ fisnan o y = true -> flt o x y = false /\ fle o x y = false /\ feq o x y = false;
  sp_zdiv : forall x, zero_or_nan o (fdiv o (f0 o) x)
}.

(** a coefficient matrix no row of which carries information: all zero, or NaN in every row
    whose column has a nonzero (or NaN) mean square *)
Definition ruined_multitask {F} (o : FOps F) (X : mat F) (p T : nat) (W : mat F) : Prop :=
  W = mzeros o p T \/
  (shaped p T W /\ forall k r, k < p -> nth_error (mrows W) k = Some r ->
    (feq o (mean_square o X k) (f0 o) = true -> Forall (eq (f0 o)) r) /\
    (feq o (mean_square o X k) (f0 o) = false -> Forall (fun x => fisnan o x = true) r)).
