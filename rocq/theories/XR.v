(** Exact real numbers extended with the IEEE special values: the instance of [FOps] in which
    optimality, descent and convergence are proved.  No rounding, one zero, one NaN. *)
From Coq Require Import List ZArith Bool Arith Reals Lra.
From Verif Require Import Ops Arr.
Import ListNotations.
Open Scope R_scope.

Inductive xr : Type := Fin (r : R) | PInf | NInf | NaN.

(** decidable comparisons of reals as booleans *)
Definition Rltb (a b : R) : bool := if Rlt_dec a b then true else false.
Definition Rleb (a b : R) : bool := if Rle_dec a b then true else false.
Definition Reqb (a b : R) : bool := if Req_EM_T a b then true else false.

Lemma Rltb_spec a b : Rltb a b = true <-> a < b.
Proof. unfold Rltb. destruct (Rlt_dec a b); split; auto; discriminate. Qed.
Lemma Rleb_spec a b : Rleb a b = true <-> a <= b.
Proof. unfold Rleb. destruct (Rle_dec a b); split; auto; discriminate. Qed.
Lemma Reqb_spec a b : Reqb a b = true <-> a = b.
Proof. unfold Reqb. destruct (Req_EM_T a b); split; auto; discriminate. Qed.
Lemma Rltb_false a b : Rltb a b = false <-> b <= a.
Proof. unfold Rltb. destruct (Rlt_dec a b); split; intros; try discriminate; try lra; auto. Qed.
Lemma Rleb_false a b : Rleb a b = false <-> b < a.
Proof. unfold Rleb. destruct (Rle_dec a b); split; intros; try discriminate; try lra; auto. Qed.
Lemma Reqb_false a b : Reqb a b = false <-> a <> b.
Proof. unfold Reqb. destruct (Req_EM_T a b); split; intros; try discriminate; try tauto; auto. Qed.
Lemma Reqb_refl a : Reqb a a = true.
Proof. apply Reqb_spec; reflexivity. Qed.

(** infinity with the sign of [a]; NaN for 0 *)
Definition inf_of (a : R) : xr := if Rltb 0 a then PInf else if Rltb a 0 then NInf else NaN.
Definition xopp (x : xr) : xr :=
  match x with Fin a => Fin (- a) | PInf => NInf | NInf => PInf | NaN => NaN end.

Definition xadd (x y : xr) : xr :=
  match x, y with
  | Fin a, Fin b => Fin (a + b)
  | NaN, _ | _, NaN => NaN
  | PInf, NInf | NInf, PInf => NaN
  | PInf, _ | _, PInf => PInf
  | NInf, _ | _, NInf => NInf
  end.
Definition xsub (x y : xr) : xr :=
  match x, y with Fin a, Fin b => Fin (a - b) | _, _ => xadd x (xopp y) end.

Definition xmul (x y : xr) : xr :=
  match x, y with
  | Fin a, Fin b => Fin (a * b)
  | NaN, _ | _, NaN => NaN
  | Fin a, PInf | PInf, Fin a => inf_of a
  | Fin a, NInf | NInf, Fin a => xopp (inf_of a)
  | PInf, PInf | NInf, NInf => PInf
  | PInf, NInf | NInf, PInf => NInf
  end.

(** the sign of a zero divisor is taken as positive *)
Definition xdiv (x y : xr) : xr :=
  match x, y with
  | Fin a, Fin b => if Reqb b 0 then inf_of a else Fin (a / b)
  | NaN, _ | _, NaN => NaN
  | Fin _, _ => Fin 0
  | PInf, Fin b => if Rltb b 0 then NInf else PInf
  | NInf, Fin b => if Rltb b 0 then PInf else NInf
  | _, _ => NaN
  end.

Definition xabs (x : xr) : xr :=
  match x with Fin a => Fin (Rabs a) | PInf | NInf => PInf | NaN => NaN end.
Definition xsqrt (x : xr) : xr :=
  match x with Fin a => if Rltb a 0 then NaN else Fin (sqrt a) | PInf => PInf | _ => NaN end.
Definition xsignum (x : xr) : xr :=
  match x with
  | Fin a => if Rltb a 0 then Fin (-1) else Fin 1
  | PInf => Fin 1 | NInf => Fin (-1) | NaN => NaN
  end.
Definition xmax (x y : xr) : xr :=
  match x, y with
  | NaN, _ => y
  | _, NaN => x
  | Fin a, Fin b => Fin (Rmax a b)
  | PInf, _ | _, PInf => PInf
  | NInf, _ => y
  | _, NInf => x
  end.
Definition xlt (x y : xr) : bool :=
  match x, y with
  | NaN, _ | _, NaN => false
  | Fin a, Fin b => Rltb a b
  | _, PInf => match x with PInf => false | _ => true end
  | NInf, _ => match y with NInf => false | _ => true end
  | _, _ => false
  end.
Definition xeq (x y : xr) : bool :=
  match x, y with
  | Fin a, Fin b => Reqb a b
  | PInf, PInf | NInf, NInf => true
  | _, _ => false
  end.
Definition xle (x y : xr) : bool :=
  match x, y with Fin a, Fin b => Rleb a b | _, _ => xlt x y || xeq x y end.
Definition xisnan (x : xr) : bool := match x with NaN => true | _ => false end.
Definition xisneg (x : xr) : bool :=
  match x with Fin a => Rltb a 0 | NInf => true | _ => false end.
Definition xcast (n : nat) : xr := Fin (INR n).
Definition xlit (z : Z) (d : positive) : xr := Fin (IZR z / IZR (Zpos d)).
Definition xexp (x : xr) : xr :=
  match x with Fin a => Fin (exp a) | PInf => PInf | NInf => Fin 0 | NaN => NaN end.
Definition xln (x : xr) : xr :=
  match x with
  | Fin a => if Rltb 0 a then Fin (ln a) else if Reqb a 0 then NInf else NaN
  | PInf => PInf | _ => NaN
  end.
Definition xlog (x base : xr) : xr := xdiv (xln x) (xln base).
Definition xe : xr := Fin (exp 1).
Definition xcos (x : xr) : xr := match x with Fin a => Fin (cos a) | _ => NaN end.
Definition xacos (x : xr) : xr :=
  match x with Fin a => if Rleb (Rabs a) 1 then Fin (acos a) else NaN | _ => NaN end.
Definition xpowf (x y : xr) : xr :=
  match x, y with
  | Fin a, Fin b =>
      if Reqb b 0 then Fin 1
      else if Rltb 0 a then Fin (Rpower a b)
      else if Reqb a 0 then (if Rltb 0 b then Fin 0 else PInf)
      else NaN
  | PInf, Fin b => if Reqb b 0 then Fin 1 else if Rltb 0 b then PInf else Fin 0
  | NaN, Fin b => if Reqb b 0 then Fin 1 else NaN
  | _, _ => NaN
  end.
Definition xsum (l : list xr) : xr := fold_left xadd l (Fin 0).
Definition xdot (a b : list xr) : xr := xsum (map2 xmul a b).

Definition xops : FOps xr := {|
  f0 := Fin 0; f1 := Fin 1;
  fadd := xadd; fsub := xsub; fmul := xmul; fdiv := xdiv; fneg := xopp; fabs := xabs;
  fsqrt := xsqrt; fsignum := xsignum; fmax := xmax; flt := xlt; fle := xle; feq := xeq;
  fisnan := xisnan; fisneg := xisneg; finf := PInf; fninf := NInf;
  fcast := xcast; flit := xlit; fexp := xexp; flog := xlog; fe := xe; fcos := xcos;
  facos := xacos; fpowf := xpowf; isum := xsum; nsum := xsum; ndot := xdot; gdot := xdot
|}.

(** *** Behaviour on finite values *)
Lemma xdiv_fin a b : b <> 0 -> xdiv (Fin a) (Fin b) = Fin (a / b).
Proof. intros H. simpl. apply Reqb_false in H. rewrite H. reflexivity. Qed.
Lemma xsqrt_fin a : 0 <= a -> xsqrt (Fin a) = Fin (sqrt a).
Proof. intros H. simpl. apply Rltb_false in H. rewrite H. reflexivity. Qed.
Lemma xlt_fin a b : xlt (Fin a) (Fin b) = Rltb a b.
Proof. reflexivity. Qed.
Lemma xle_fin a b : xle (Fin a) (Fin b) = Rleb a b.
Proof. reflexivity. Qed.
Lemma Fin_inj a b : Fin a = Fin b -> a = b.
Proof. congruence. Qed.

(** finite sums: [Rsum] is the plain right-nested sum of a list *)
Definition Rsum (l : list R) : R := fold_right Rplus 0 l.
Definition Rdot (a b : list R) : R := Rsum (map2 Rmult a b).

Lemma fold_xadd_fin l : forall a, fold_left xadd (map Fin l) (Fin a) = Fin (a + Rsum l).
Proof.
  induction l as [|x l IH]; intros a; simpl.
  - f_equal; lra.
  - rewrite IH. f_equal. lra.
Qed.
Lemma xsum_fin l : xsum (map Fin l) = Fin (Rsum l).
Proof. unfold xsum. rewrite fold_xadd_fin. f_equal. lra. Qed.
Lemma map2_fin f g a : forall b, (forall x y, f (Fin x) (Fin y) = Fin (g x y)) ->
  map2 f (map Fin a) (map Fin b) = map Fin (map2 g a b).
Proof.
  unfold map2. induction a as [|x a IH]; intros b H; simpl; auto.
  destruct b as [|y b]; simpl; auto. rewrite H. f_equal. apply IH; auto.
Qed.
Lemma xdot_fin a b : xdot (map Fin a) (map Fin b) = Fin (Rdot a b).
Proof. unfold xdot. rewrite (map2_fin _ Rmult) by reflexivity. apply xsum_fin. Qed.

(** turn boolean comparisons in the context into propositions *)
Ltac rb :=
  repeat match goal with
  | H : Rltb _ _ = true |- _ => apply Rltb_spec in H
  | H : Rltb _ _ = false |- _ => apply Rltb_false in H
  | H : Rleb _ _ = true |- _ => apply Rleb_spec in H
  | H : Rleb _ _ = false |- _ => apply Rleb_false in H
  | H : Reqb _ _ = true |- _ => apply Reqb_spec in H
  | H : Reqb _ _ = false |- _ => apply Reqb_false in H
  end.
(** case analysis on the first boolean comparison of the goal *)
Ltac rcase :=
  match goal with
  | |- context [Rltb ?a ?b] => destruct (Rltb a b) eqn:?
  | |- context [Rleb ?a ?b] => destruct (Rleb a b) eqn:?
  | |- context [Reqb ?a ?b] => destruct (Reqb a b) eqn:?
  end; rb.
