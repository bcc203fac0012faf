(** Rounding of soft thresholding and of the L1 proximal operator. *)
From Coq Require Import List ZArith Bool Arith Lia Reals Lra.
From Flocq Require Import Core BinarySingleNaN Plus_error.
From Verif Require Import Ops Arr IEEE SpecPen SpecRound PNullLaws PFloat MUtils MPenalties PRunsEx.
Import ListNotations.
Open Scope R_scope.

Section I.
Context (prec emax : Z) (Hp : Prec_gt_0 prec) (Hm : Prec_lt_emax prec emax) (m : libm prec emax).
Local Notation bf := (binary_float prec emax).
Local Notation o := (ieee_ops prec emax Hp Hm m).
Local Notation fl := (fl prec emax).
Local Notation u := (urd prec).
Local Notation eta := (tiny prec emax).

Lemma soft_min (x t : bf) : is_finite x = true -> is_finite t = true -> 0 <= B2R t ->
  exists z, strong_min 1 (prox_obj (abs_pen (B2R t)) (B2R x)) z /\ nearest prec emax (soft_thresholding o x t) z.
Proof. intros Fx Ft Ht. exists (st (B2R x) (B2R t)). split; [apply st_min; exact Ht|apply soft_round; auto]. Qed.
Lemma soft_shape (x y t : bf) : is_finite x = true -> is_finite y = true -> is_finite t = true -> 0 <= B2R t ->
  Rabs (B2R (soft_thresholding o x t)) <= Rabs (B2R x) /\ 0 <= B2R (soft_thresholding o x t) * B2R x /\
  (B2R x <= B2R y -> B2R (soft_thresholding o x t) <= B2R (soft_thresholding o y t)).
Proof.
  intros Fx Fy Ft Ht. destruct (soft_round prec emax Hp Hm m x t Fx Ft Ht) as [_ Ex]. destruct (soft_round prec emax Hp Hm m y t Fy Ft Ht) as [_ Ey]. rewrite Ex, Ey.
  split; [|split].
  - apply (fl_small prec emax Hp _ x Fx). apply st_abs. exact Ht.
  - unfold st. destruct (Rlt_dec (B2R t) (B2R x)); [|destruct (Rlt_dec (B2R x) (- B2R t))].
    + assert (0 <= fl (B2R x - B2R t)) by (rewrite <- (fl_0 prec emax); apply fl_le; [exact Hp|lra]). apply Rmult_le_pos; lra.
    + assert (fl (B2R x + B2R t) <= 0) by (rewrite <- (fl_0 prec emax); apply fl_le; [exact Hp|lra]). nra.
    + rewrite fl_0. lra.
  - intros H. apply fl_le; [exact Hp|]. apply st_mono; auto.
Qed.
Lemma l1_err (v s a : bf) : is_finite v = true -> is_finite (fmul o a s) = true -> 0 <= B2R s -> 0 <= B2R a ->
  exists z, strong_min 1 (prox_obj (fun y => B2R s * abs_pen (B2R a) y) (B2R v)) z /\
    is_finite (pen_prox (l1_penalty o) (L1 a) v s) = true /\
    Rabs (B2R (pen_prox (l1_penalty o) (L1 a) v s) - z) <= u * Rabs z + (1 + u) * (u * (B2R a * B2R s) + eta).
Proof.
  intros Fv Ft Hs Ha. cbn [ieee_ops fmul] in Ft. destruct (mul_fin prec emax Hp Hm a s Ft) as (Fa & Fs & Et).
  assert (P : 0 <= B2R a * B2R s) by (apply Rmult_le_pos; auto).
  assert (P' : 0 <= fl (B2R a * B2R s)) by (rewrite <- (fl_0 prec emax); apply fl_le; [exact Hp|lra]).
  exists (st (B2R v) (B2R a * B2R s)). split.
  { intros z. pose proof (st_min (B2R v) (B2R a * B2R s) P z) as M. unfold prox_obj, abs_pen in *.
    replace (B2R s * (B2R a * Rabs (st (B2R v) (B2R a * B2R s)))) with (B2R a * B2R s * Rabs (st (B2R v) (B2R a * B2R s))) by ring.
    replace (B2R s * (B2R a * Rabs z)) with (B2R a * B2R s * Rabs z) by ring. exact M. }
  cbn [l1_penalty pen_prox]. unfold l1_prox. cbn [l1_alpha]. set (tt := fmul o a s). assert (Etf : B2R tt = fl (B2R a * B2R s)) by exact Et.
  assert (Pt : 0 <= B2R tt) by (rewrite Etf; exact P'). destruct (soft_round prec emax Hp Hm m v tt Fv Ft Pt) as [F E]. split; [exact F|]. rewrite E.
  assert (D : Rabs (B2R tt - B2R a * B2R s) <= u * (B2R a * B2R s) + eta).
  { rewrite Etf. pose proof (fl_err prec emax Hp (B2R a * B2R s)) as Q. rewrite (Rabs_right (B2R a * B2R s)) in Q by lra. exact Q. }
  set (z := st (B2R v) (B2R a * B2R s)). set (z' := st (B2R v) (B2R tt)). set (dl := u * (B2R a * B2R s) + eta) in *.
  assert (Z : Rabs (z' - z) <= dl) by (eapply Rle_trans; [apply st_lip; auto|exact D]).
  assert (R1 : Rabs (fl z' - z') <= u * Rabs z').
  { unfold z', st. destruct (Rlt_dec (B2R tt) (B2R v)); [|destruct (Rlt_dec (B2R v) (- B2R tt))].
    - apply (fl_plus_err prec emax Hp (B2R v) (- B2R tt)); [apply fmt_val|apply generic_format_opp, fmt_val].
    - apply fl_plus_err; [exact Hp|apply fmt_val|apply fmt_val].
    - rewrite fl_0, Rminus_0_r, Rabs_R0. lra. }
  pose proof (u_pos prec) as U. assert (Rabs z' <= Rabs z + dl). { replace z' with ((z' - z) + z) by ring. eapply Rle_trans; [apply Rabs_triang|]. lra. }
  replace (fl z' - z) with ((fl z' - z') + (z' - z)) by ring. eapply Rle_trans; [apply Rabs_triang|].
  assert (u * Rabs z' <= u * (Rabs z + dl)) by (apply Rmult_le_compat_l; lra). lra.
Qed.
End I.

(** rounding breaks nonexpansiveness *)
Definition e0 : f64 := fdiv ops64 (f64_of 1) (f64_of (2 ^ 52)).
Definition ne_x : f64 := fadd ops64 (f64_of 1) e0.
Definition ne_y : f64 := fadd ops64 ne_x e0.
Definition ne_t : f64 := fdiv ops64 e0 (f64_of 2).
Lemma b2r_sf (x : f64) : B2R x = SF2R radix2 (B2SF x).
Proof. symmetry. apply SF2R_B2SF. Qed.
Lemma nonexp : exists x y t : f64, is_finite x = true /\ is_finite y = true /\ is_finite t = true /\ 0 <= B2R t /\
  Rabs (B2R x - B2R y) < Rabs (B2R (soft_thresholding ops64 x t) - B2R (soft_thresholding ops64 y t)).
Proof.
  exists ne_x, ne_y, ne_t. split; [vm_compute; reflexivity|]. split; [vm_compute; reflexivity|]. split; [vm_compute; reflexivity|].
  rewrite !b2r_sf.
  replace (B2SF ne_x) with (SpecFloat.S754_finite false 4503599627370497 (-52)) by (vm_compute; reflexivity).
  replace (B2SF ne_y) with (SpecFloat.S754_finite false 4503599627370498 (-52)) by (vm_compute; reflexivity).
  replace (B2SF ne_t) with (SpecFloat.S754_finite false 4503599627370496 (-105)) by (vm_compute; reflexivity).
  replace (B2SF (soft_thresholding ops64 ne_x ne_t)) with (SpecFloat.S754_finite false 4503599627370496 (-52)) by (vm_compute; reflexivity).
  replace (B2SF (soft_thresholding ops64 ne_y ne_t)) with (SpecFloat.S754_finite false 4503599627370498 (-52)) by (vm_compute; reflexivity).
  unfold SF2R, F2R. cbn [Fnum Fexp Z.opp cond_Zopp]. pose proof (bpow_gt_0 radix2 (-52)) as B. pose proof (bpow_gt_0 radix2 (-105)) as B'. set (b := bpow radix2 (-52)) in *. set (b' := bpow radix2 (-105)) in *.
  split; [apply Rmult_le_pos; lra|]. rewrite !Rabs_left by lra. lra.
Qed.
Lemma ex_soft : is_finite ne_x = true /\ is_finite ne_t = true /\ 0 <= B2R ne_t /\ B2R (soft_thresholding ops64 ne_x ne_t) = 1 /\
  is_finite (fmul ops64 ne_t ne_t) = true.
Proof.
  split; [vm_compute; reflexivity|]. split; [vm_compute; reflexivity|]. rewrite !b2r_sf.
  replace (B2SF ne_t) with (SpecFloat.S754_finite false 4503599627370496 (-105)) by (vm_compute; reflexivity).
  replace (B2SF (soft_thresholding ops64 ne_x ne_t)) with (SpecFloat.S754_finite false 4503599627370496 (-52)) by (vm_compute; reflexivity).
  unfold SF2R, F2R. cbn [Fnum Fexp Z.opp cond_Zopp]. split; [apply Rmult_le_pos; [lra|left; apply bpow_gt_0]|]. split; [simpl; lra|vm_compute; reflexivity].
Qed.
