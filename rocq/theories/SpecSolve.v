(** Vocabulary for statements about whole solver runs (any float arithmetic). *)
From Coq Require Import List ZArith Bool Arith Permutation.
From Verif Require Import Ops Arr MDatasets MHyper.
Import ListNotations.

(** a well-formed matrix of shape [r] x [c] *)
Definition shaped {A} (r c : nat) (m : mat A) : Prop := mnr m = r /\ mnc m = c /\ mwf m.

(** a compressed-column matrix with [n] rows and [p] columns whose indices are all in range *)
Definition csc_wf {F} (n p : nat) (c : csc F) : Prop :=
  length (cindptr c) = S p /\
  length (cindices c) = length (cdata c) /\
  Forall (fun i => (0 <= i < Z.of_nat n)%Z) (cindices c) /\
  Forall (fun q => (0 <= q <= Z.of_nat (length (cdata c)))%Z) (cindptr c).

(** a target array with [n] samples usable as a single target *)
Definition target1_wf {F} (n : nat) (t : targets F) : Prop :=
  match t with
  | T1 y => length y = n
  | T2 Y => mnr Y = n /\ mnc Y = 1 /\ mwf Y
  end.

(** a target array with [n] samples and [T] tasks *)
Definition target_wf {F} (n T : nat) (t : targets F) : Prop :=
  match t with
  | T1 y => length y = n /\ T = 1
  | T2 Y => mnr Y = n /\ mnc Y = T /\ mwf Y
  end.

(** what is used of the special values: comparisons with themselves and with NaN.
    Satisfied by the reals with infinities and NaN and by IEEE floats. *)
Record float_laws {F} (o : FOps F) : Prop := {
  law_max0 : forall x, fisnan o (fmax o (f0 o) x) = false;
  law_nan0 : fisnan o (f0 o) = false;
  law_naninf : fisnan o (finf o) = false;
  law_eq0 : feq o (f0 o) (f0 o) = true
}.

(** what is used of [sort_unstable_by]: on NaN-free input it returns the positions of the
    input, each exactly once, in an order without inversions *)
Definition valid_sort {F} (o : FOps F) (srt : list F -> list nat) : Prop :=
  forall l, existsb (fisnan o) l = false ->
    Permutation (srt l) (seq 0 (length l)) /\
    forall a b x y, a < b < length l ->
      nth_error l (nth a (srt l) 0) = Some x -> nth_error l (nth b (srt l) 0) = Some y ->
      flt o x y = false.

(** settings under which extrapolation cannot read out of bounds: it is off, or the number of
    extrapolated coefficients [width] is at least [K >= 1], or there are too few epochs for it *)
Definition accel_safe (acc : bool) (K width max_epochs : nat) : Prop :=
  acc = false \/ 1 <= K <= width \/ max_epochs <= K.

(** a fit that returns normally: a validation error, or a model of the right shape *)
Definition finishes {A E} (good : A -> Prop) (r : res (result A E)) : Prop :=
  exists x, r = Ret x /\ match x with Ok w => good w | Err _ => True end.
(** a run that returns normally with [p] coefficients *)
Definition returns_len {F} (p : nat) (r : res (list F)) : Prop := exists w, r = Ret w /\ length w = p.

(** the coefficient of feature [j] is present and not equal to zero *)
Definition nonzero {F} (o : FOps F) (w : list F) (j : nat) : Prop :=
  exists x, nth_error w j = Some x /\ feq o x (f0 o) = false.
(** the row of feature [j] is present and has an entry not equal to zero *)
Definition nonzero_row {F} (o : FOps F) (W : mat F) (j : nat) : Prop :=
  exists r x, nth_error (mrows W) j = Some r /\ In x r /\ feq o x (f0 o) = false.

(** a fit that yields a validation error, the model [zero], or an out-of-bounds panic *)
Definition zero_or_oob {F A} (zero : A) (r : res (result A (estimator_error F))) : Prop :=
  (exists e, r = Ret (Err e)) \/ r = Ret (Ok zero) \/ r = Panic POob.
