(** IEEE-754 binary floats (Flocq): the instance of [FOps] for f32/f64.

    Round to nearest even.  The C library functions and the association order of ndarray's
    reductions are not fixed by the source, so they are parameters: [libm] collects them, and
    [reduces] says what is assumed of a reduction.  One NaN, with positive sign bit. *)
From Coq Require Import List ZArith Bool Arith Permutation.
From Flocq Require Import Core BinarySingleNaN.
From Verif Require Import Ops Arr.
Import ListNotations.

Section IEEE.
Context (prec emax : Z) (Hprec : Prec_gt_0 prec) (Hmax : Prec_lt_emax prec emax).
Local Notation bf := (binary_float prec emax).

Definition bzero : bf := B754_zero false.
Definition bone : bf := Bone.
Definition badd (x y : bf) : bf := Bplus mode_NE x y.
Definition bsub (x y : bf) : bf := Bminus mode_NE x y.
Definition bmul (x y : bf) : bf := Bmult mode_NE x y.
Definition bdiv (x y : bf) : bf := Bdiv mode_NE x y.
Definition bsqrt (x : bf) : bf := Bsqrt mode_NE x.
Definition bsignum (x : bf) : bf :=
  if is_nan x then B754_nan else if Bsign x then Bopp bone else bone.
(** f64::max: a NaN operand is ignored *)
Definition bmax (x y : bf) : bf :=
  if is_nan x then y else if is_nan y then x else if Bltb x y then y else x.
Definition bofZ (z : Z) : bf := binary_normalize prec emax Hprec Hmax mode_NE z 0 false.
Definition bcast (n : nat) : bf := bofZ (Z.of_nat n).
(** literals in the source have exactly representable numerator and denominator *)
Definition blit (z : Z) (d : positive) : bf := bdiv (bofZ z) (bofZ (Zpos d)).

(** everything the source does not determine *)
Record libm : Type := Libm {
  lm_exp : bf -> bf;
  lm_ln : bf -> bf;
  lm_e : bf;
  lm_cos : bf -> bf;
  lm_acos : bf -> bf;
  lm_powf : bf -> bf -> bf;
  lm_isum : list bf -> bf;
  lm_nsum : list bf -> bf;
  lm_ndot : list bf -> list bf -> bf;
  lm_gdot : list bf -> list bf -> bf
}.

(** [r] is a sum of the elements of [l] in some order and some association; zeros may be
    used as extra starting values of accumulators *)
Inductive tree_sum : list bf -> bf -> Prop :=
| ts_zero : tree_sum [] bzero
| ts_one x : tree_sum [x] x
| ts_add l1 l2 r1 r2 : tree_sum l1 r1 -> tree_sum l2 r2 -> tree_sum (l1 ++ l2) (badd r1 r2)
| ts_perm l1 l2 r : Permutation l1 l2 -> tree_sum l1 r -> tree_sum l2 r.

(** assumption on the reductions: sums are sums, dot products are sums of the products *)
Definition reduces (m : libm) : Prop :=
  (forall l, tree_sum l (lm_isum m l)) /\ (forall l, tree_sum l (lm_nsum m l)) /\
  (forall a b, tree_sum (map2 bmul a b) (lm_ndot m a b)) /\
  (forall a b, tree_sum (map2 bmul a b) (lm_gdot m a b)).

Definition ieee_ops (m : libm) : FOps bf := {|
  f0 := bzero; f1 := bone;
  fadd := badd; fsub := bsub; fmul := bmul; fdiv := bdiv; fneg := Bopp; fabs := Babs;
  fsqrt := bsqrt; fsignum := bsignum; fmax := bmax;
  flt := Bltb; fle := Bleb; feq := Beqb; fisnan := is_nan; fisneg := @Bsign prec emax;
  finf := B754_infinity false; fninf := B754_infinity true;
  fcast := bcast; flit := blit; fexp := lm_exp m;
  flog := (fun x base => bdiv (lm_ln m x) (lm_ln m base)); fe := lm_e m; fcos := lm_cos m;
  facos := lm_acos m; fpowf := lm_powf m;
  isum := lm_isum m; nsum := lm_nsum m; ndot := lm_ndot m; gdot := lm_gdot m
|}.

(** left-to-right reductions, with given library functions *)
Definition seq_sum (l : list bf) : bf := fold_left badd l bzero.
Definition seq_dot (a b : list bf) : bf := seq_sum (map2 bmul a b).
Definition seq_libm (ex ln co ac : bf -> bf) (e : bf) (pw : bf -> bf -> bf) : libm :=
  Libm ex ln e co ac pw seq_sum seq_sum seq_dot seq_dot.

Lemma tree_sum_fold l : forall l0 r, tree_sum l0 r -> tree_sum (l0 ++ l) (fold_left badd l r).
Proof.
  induction l as [|x l IH]; intros l0 r H; simpl.
  - rewrite app_nil_r. exact H.
  - change (x :: l) with ([x] ++ l). rewrite app_assoc. apply IH. apply ts_add; auto using ts_one.
Qed.
Lemma seq_reduces ex ln co ac e pw : reduces (seq_libm ex ln co ac e pw).
Proof.
  assert (H : forall l, tree_sum l (seq_sum l)) by (intros l; apply (tree_sum_fold l [] bzero ts_zero)).
  repeat split; intros; try apply H; apply H.
Qed.
End IEEE.

(** double precision, with placeholder library functions: for executing concrete runs *)
Definition f64 : Set := binary_float 53 1024.
Definition Hprec64 : Prec_gt_0 53 := eq_refl.
Definition Hmax64 : Prec_lt_emax 53 1024 := eq_refl.
Definition id64 : f64 -> f64 := fun x => x.
Definition libm64 : libm 53 1024 :=
  seq_libm 53 1024 Hprec64 Hmax64 id64 id64 id64 id64 (bone 53 1024 Hprec64 Hmax64) (fun x _ => x).
Definition ops64 : FOps f64 := ieee_ops 53 1024 Hprec64 Hmax64 libm64.
