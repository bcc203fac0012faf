(** Float operations and panics used by the whole model.

    Rust: [src/lib.rs] 68-105 ([trait Float], implemented for f32 and f64), num_traits,
    and the ndarray reductions ([sum], [dot], matrix products).  The model is written
    once over this record and instantiated in [XR.v] (exact reals with IEEE special
    values) and [IEEE.v] (Flocq binary floats). *)
From Coq Require Import List ZArith.
Import ListNotations.

Record FOps (F : Type) : Type := mkFOps {
  f0 : F;                      (* F::zero() *)
  f1 : F;                      (* F::one() *)
  fadd : F -> F -> F;
  fsub : F -> F -> F;
  fmul : F -> F -> F;
  fdiv : F -> F -> F;
  fneg : F -> F;               (* unary minus *)
  fabs : F -> F;               (* x.abs() *)
  fsqrt : F -> F;              (* x.sqrt() *)
  fsignum : F -> F;            (* x.signum() : 1 for +0, -1 for -0, NaN for NaN *)
  fmax : F -> F -> F;          (* F::max: a NaN operand is ignored *)
  flt : F -> F -> bool;        (* x < y  (false if one is NaN) *)
  fle : F -> F -> bool;        (* x <= y (false if one is NaN) *)
  feq : F -> F -> bool;        (* x == y (false if one is NaN) *)
  fisnan : F -> bool;
  fisneg : F -> bool;          (* Signed::is_negative: the sign bit of the value *)
  finf : F;                    (* F::infinity() *)
  fninf : F;                   (* F::neg_infinity() *)
  fcast : nat -> F;            (* F::cast of a usize *)
  flit : Z -> positive -> F;   (* F::cast of the literal num/den *)
  fexp : F -> F;
  flog : F -> F -> F;          (* F::log(x, base) *)
  fe : F;                      (* F::cast(std::f64::consts::E) *)
  fcos : F -> F;
  facos : F -> F;
  fpowf : F -> F -> F;
  isum : list F -> F;          (* Iterator::sum *)
  nsum : list F -> F;          (* ArrayBase::sum *)
  ndot : list F -> list F -> F;(* 1-D dot on equal lengths *)
  gdot : list F -> list F -> F (* inner product used by matrix-matrix products *)
}.

Arguments f0 {F}. Arguments f1 {F}. Arguments fadd {F}. Arguments fsub {F}.
Arguments fmul {F}. Arguments fdiv {F}. Arguments fneg {F}. Arguments fabs {F}.
Arguments fsqrt {F}. Arguments fsignum {F}. Arguments fmax {F}. Arguments flt {F}.
Arguments fle {F}. Arguments feq {F}. Arguments fisnan {F}. Arguments fisneg {F}.
Arguments finf {F}. Arguments fninf {F}. Arguments fcast {F}. Arguments flit {F}.
Arguments fexp {F}. Arguments flog {F}. Arguments fe {F}. Arguments fcos {F}.
Arguments facos {F}. Arguments fpowf {F}. Arguments isum {F}. Arguments nsum {F}.
Arguments ndot {F}. Arguments gdot {F}.

(** Panics of the Rust code, kept as data. *)
Inductive panic : Type :=
| POob          (* index out of bounds *)
| PShape        (* ndarray shape mismatch *)
| PNaNCmp       (* expect("Elements must not be NaN.") *)
| PUnwrap       (* unwrap() of an Err *)
| PUnderflow.   (* usize subtraction below zero *)

Inductive res (A : Type) : Type :=
| Ret (a : A)
| Panic (p : panic).
Arguments Ret {A}. Arguments Panic {A}.

Definition bind {A B} (m : res A) (k : A -> res B) : res B :=
  match m with Ret a => k a | Panic p => Panic p end.

Declare Scope res_scope.
Delimit Scope res_scope with res.
Notation "x <- m ;; k" := (bind m (fun x => k))
  (at level 61, m at next level, right associativity) : res_scope.
Notation "' p <- m ;; k" := (bind m (fun x => match x with p => k end))
  (at level 61, p pattern, m at next level, right associativity) : res_scope.
Open Scope res_scope.

(** Rust's [Result], kept as data. *)
Inductive result (A E : Type) : Type :=
| Ok (a : A)
| Err (e : E).
Arguments Ok {A E}. Arguments Err {A E}.

(** [for a in l { s = f(s,a) }] *)
Fixpoint foldM {S A} (f : S -> A -> res S) (l : list A) (s : S) : res S :=
  match l with
  | [] => Ret s
  | a :: l' => s' <- f s a ;; foldM f l' s'
  end.

(** [l.map(f).collect()] *)
Fixpoint mapM {A B} (f : A -> res B) (l : list A) : res (list B) :=
  match l with
  | [] => Ret []
  | a :: l' => b <- f a ;; bs <- mapM f l' ;; Ret (b :: bs)
  end.
