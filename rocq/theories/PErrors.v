(** Values carried by errors. *)
From Coq Require Import List ZArith Bool Arith Lia Reals Lra.
From Flocq Require Import Core BinarySingleNaN.
From Verif Require Import Ops Arr MHyper IEEE MErrors SpecErrors.
Import ListNotations.
Open Scope R_scope.

Section E.
Context {prec emax : Z}.
Local Notation bf := (binary_float prec emax).
Lemma to_f32_image (x : bf) : image32 x (to_f32 x).
Proof.
  unfold image32. destruct x as [s|s| |s m e B]; cbn [to_f32].
  - assert (Z0 : near32 0 = 0) by (unfold near32; apply round_0; auto with typeclass_instances). split; [reflexivity|]. split; [reflexivity|]. split; [discriminate|]. intros _. cbn [B2R is_finite]. rewrite Z0. split; [split; reflexivity|].
    intros H. exfalso. rewrite Rabs_R0 in H. pose proof (bpow_gt_0 radix2 128). lra.
  - split; [reflexivity|]. split; [reflexivity|]. split; [reflexivity|discriminate].
  - split; [reflexivity|]. split; [reflexivity|]. split; [reflexivity|discriminate].
  - pose proof (binary_normalize_correct 24 128 Hps Hms mode_NE (cond_Zopp s (Zpos m)) e s) as Q.
    change (SpecFloat.fexp 24 128) with (FLT_exp (-149) 24) in Q. cbn [round_mode] in Q. fold (near32 (F2R (Float radix2 (cond_Zopp s (Z.pos m)) e))) in Q.
    set (r := binary_normalize 24 128 Hps Hms mode_NE (cond_Zopp s (Z.pos m)) e s) in *. cbn [B2R Bsign is_nan is_finite].
    set (v := F2R (Float radix2 (cond_Zopp s (Z.pos m)) e)) in *.
    assert (SV : Rcompare v 0 = if s then Lt else Gt). { unfold v. destruct s; cbn [cond_Zopp]; [apply Rcompare_Lt, F2R_lt_0|apply Rcompare_Gt, F2R_gt_0]; cbn; lia. }
    destruct (Rlt_bool_spec (Rabs (near32 v)) (bpow radix2 128)) as [L|L].
    + destruct Q as (Q1 & Q2 & Q3). rewrite SV in Q3. split; [rewrite Q3; destruct s; reflexivity|]. split; [destruct r; auto; discriminate|]. split; [discriminate|]. intros _. split; [intros _; split; auto|intros H; exfalso; exact (Rlt_irrefl _ (Rlt_le_trans _ _ _ L H))].
    + assert (Er : r = B754_infinity s).
      { apply B2SF_inj. rewrite Q. unfold binary_overflow, BinarySingleNaN.binary_overflow. cbn [overflow_to_inf]. unfold Rlt_bool. rewrite SV. destruct s; reflexivity. }
      rewrite Er. cbn. split; [reflexivity|]. split; [reflexivity|]. split; [discriminate|]. intros _. split; [intros H; exfalso; exact (Rlt_irrefl _ (Rlt_le_trans _ _ _ H L))|reflexivity].
Qed.
End E.
Lemma near32_le x y : x <= y -> near32 x <= near32 y.
Proof. apply round_le; auto with typeclass_instances. apply (@FLT_exp_valid (-149) 24 Hps). Qed.
Lemma near32_single (x : single) : near32 (B2R x) = B2R x.
Proof. unfold near32. apply round_generic; auto with typeclass_instances. apply (generic_format_B2R 24 128). Qed.
(** single precision values are reported unchanged *)
Lemma to_f32_single (x : single) : to_f32 x = x.
Proof.
  destruct (to_f32_image x) as (S1 & N1 & NF & FI). destruct x as [s|s| |s m e B]; try reflexivity. destruct (FI eq_refl) as (F1 & _). rewrite near32_single in F1.
  destruct (F1 (abs_B2R_lt_emax 24 128 _)) as (F2 & F3). apply B2R_Bsign_inj; auto.
Qed.
Lemma reported_single (e : estimator_error single) : reported e = e.
Proof. destruct e; cbn [reported]; rewrite ?to_f32_single; reflexivity. Qed.
Section O.
Context {prec emax : Z} (Hp : Prec_gt_0 prec) (Hm : Prec_lt_emax prec emax).
Local Notation bf := (binary_float prec emax).
Lemma one32_R : B2R one32 = 1. Proof. apply Bone_correct. Qed.
Lemma near32_1 : near32 1 = 1. Proof. rewrite <- one32_R. apply near32_single. Qed.
Lemma near32_0 : near32 0 = 0. Proof. apply round_0; auto with typeclass_instances. Qed.
(** order against 1 and 0 survives, weakly *)
Lemma sign_pos (x : bf) : is_finite x = true -> 0 < B2R x -> Bsign x = false.
Proof. intros F H. destruct x as [s|s| |[|] m e B]; try discriminate; cbn [B2R Bsign] in *; [lra| |reflexivity]. exfalso. pose proof (F2R_lt_0 radix2 (Float radix2 (cond_Zopp true (Z.pos m)) e) ltac:(cbn; lia)). lra. Qed.
Lemma sign_neg (x : bf) : is_finite x = true -> B2R x < 0 -> Bsign x = true.
Proof. intros F H. destruct x as [s|s| |[|] m e B]; try discriminate; cbn [B2R Bsign] in *; [lra|reflexivity|]. exfalso. pose proof (F2R_gt_0 radix2 (Float radix2 (cond_Zopp false (Z.pos m)) e) ltac:(cbn; lia)). lra. Qed.
Lemma lt_R (x y : bf) : is_finite x = true -> is_finite y = true -> Bltb x y = true -> B2R x < B2R y.
Proof. intros Fx Fy H. rewrite Bltb_correct in H by auto. destruct (Rlt_bool_spec (B2R x) (B2R y)); [auto|discriminate]. Qed.
Lemma le32 (x y : single) : is_finite x = true -> is_finite y = true -> B2R x <= B2R y -> Bleb x y = true.
Proof. intros Fx Fy H. rewrite Bleb_correct by auto. apply Rle_bool_true. exact H. Qed.
Lemma fin_cases (x : bf) : is_finite x = true -> (is_finite (to_f32 x) = true /\ B2R (to_f32 x) = near32 (B2R x)) \/ (to_f32 x = B754_infinity (Bsign x) /\ bpow radix2 128 <= Rabs (near32 (B2R x))).
Proof.
  intros Fx. destruct (to_f32_image x) as (S1 & N1 & NF & FI). destruct (FI Fx) as (F1 & F2). destruct (Rlt_le_dec (Rabs (near32 (B2R x))) (bpow radix2 128)) as [R|R]; [left; auto|right; split; [|exact R]].
  specialize (F2 R). rewrite <- S1. assert (is_nan x = false) by (destruct x; auto; discriminate). rewrite H in N1. destruct (to_f32 x); try discriminate; reflexivity.
Qed.
Local Notation one := (@Bone prec emax Hp Hm).
Lemma above_one (x : bf) : Bltb one x = true -> Bleb one32 (to_f32 x) = true.
Proof.
  intros H. destruct (is_finite x) eqn:Fx.
  - apply lt_R in H; [|apply is_finite_Bone|exact Fx]. rewrite Bone_correct in H. destruct (fin_cases x Fx) as [(F & V)|(-> & _)].
    + apply le32; [apply is_finite_Bone|exact F|]. rewrite one32_R, V, <- near32_1. apply near32_le. lra.
    + rewrite (sign_pos x Fx) by lra. reflexivity.
  - destruct x as [|[|]| |]; try discriminate; try reflexivity; exfalso; revert H; generalize one; intros [ | [|] | | [|] ]; cbn; discriminate.
Qed.
Lemma below_one (x : bf) : Bltb x one = true -> Bleb (to_f32 x) one32 = true.
Proof.
  intros H. destruct (is_finite x) eqn:Fx.
  - apply lt_R in H; [|exact Fx|apply is_finite_Bone]. rewrite Bone_correct in H. assert (N : near32 (B2R x) <= 1) by (rewrite <- near32_1; apply near32_le; lra). destruct (fin_cases x Fx) as [(F & V)|(-> & R)].
    + apply le32; [exact F|apply is_finite_Bone|]. rewrite one32_R, V. exact N.
    + assert (B2R x < 0). { destruct (Rlt_le_dec (B2R x) 0) as [L|L]; [exact L|]. exfalso. apply near32_le in L. rewrite near32_0 in L. rewrite Rabs_pos_eq in R by exact L. assert (1 < bpow radix2 128) by (apply (bpow_lt radix2 0 128); lia). lra. }
      rewrite (sign_neg x Fx) by lra. reflexivity.
  - destruct x as [|[|]| |]; try discriminate; try reflexivity; exfalso; revert H; generalize one; intros [ | [|] | | [|] ]; cbn; discriminate.
Qed.
Lemma below_zero (x : bf) : Bltb x (B754_zero false) = true -> Bleb (to_f32 x) zero32 = true.
Proof.
  intros H. destruct (is_finite x) eqn:Fx.
  - apply lt_R in H; [|exact Fx|reflexivity]. cbn [B2R] in H. destruct (fin_cases x Fx) as [(F & V)|(-> & R)].
    + apply le32; [exact F|reflexivity|]. cbn [B2R zero32]. rewrite V, <- near32_0. apply near32_le. lra.
    + rewrite (sign_neg x Fx) by lra. reflexivity.
  - destruct x as [|[|]| |]; try discriminate; reflexivity.
Qed.
Context (m : libm prec emax).
Local Notation o := (ieee_ops prec emax Hp Hm m).
Lemma sign32 (x : bf) : Bsign (to_f32 x) = Bsign x. Proof. apply (proj1 (to_f32_image x)). Qed.
Lemma c103 chk p e : In chk (checks o) -> check_reported chk p = Err e -> tells p e.
Proof.
  intros HI H. assert (A : fisneg o (p_alpha p) = true -> tells p (reported (InvalidRegularization (p_alpha p)))) by (intros Q; split; [apply to_f32_image|rewrite sign32; exact Q]).
  assert (T : fisneg o (p_tolerance p) = true -> tells p (reported (InvalidTolerance (p_tolerance p)))) by (intros Q; split; [apply to_f32_image|rewrite sign32; exact Q]).
  assert (K : (p_K p <=? 0)%nat = true -> tells p (InvalidK (p_K p))) by (intros Q; apply Nat.leb_le in Q; cbn; lia).
  assert (W : (p_ws_start_size p <=? 0)%nat = true -> tells p (InvalidWSSize (p_ws_start_size p))) by (intros Q; apply Nat.leb_le in Q; cbn; lia).
  assert (G : flt o (p_shape p) (f1 o) = true -> tells p (reported (InvalidGamma (p_shape p)))) by (intros Q; split; [apply to_f32_image|apply below_one; exact Q]).
  assert (L : flt o (f1 o) (p_shape p) || flt o (p_shape p) (f0 o) = true -> tells p (reported (InvalidL1Ratio (p_shape p)))).
  { intros Q. split; [apply to_f32_image|]. apply orb_true_iff in Q as [Q|Q]; [left; apply above_one; exact Q|right; apply below_zero; exact Q]. }
  unfold check_reported in H. repeat destruct HI as [<-|HI]; [..|destruct HI];
  (unfold lasso_check_ref, mt_lasso_check_ref, mcp_check_ref, block_mcp_check_ref, elastic_net_check_ref, mt_elastic_net_check_ref in H;
   repeat (match type of H with context [if ?b then _ else _] => destruct b eqn:?; [injection H as <-; auto; fail|] end); discriminate).
Qed.
(** negative values stay negative: a second attempt with the reported value fails in the same way *)
Lemma again_alpha chk p a : In chk (checks o) -> check_reported chk p = Err (InvalidRegularization a) ->
  forall m' chk' q, In chk' (checks (ieee_ops 24 128 Hps Hms m')) -> p_alpha q = a -> check_reported chk' q = Err (InvalidRegularization a).
Proof.
  intros HI H m' chk' q HI' Eq. destruct (c103 chk p _ HI H) as (_ & S). unfold check_reported.
  assert (N : fisneg (ieee_ops 24 128 Hps Hms m') (p_alpha q) = true) by (rewrite Eq; exact S).
  repeat destruct HI' as [<-|HI']; [..|destruct HI']; unfold lasso_check_ref, mt_lasso_check_ref, mcp_check_ref, block_mcp_check_ref, elastic_net_check_ref, mt_elastic_net_check_ref; rewrite N, reported_single, Eq; reflexivity.
Qed.
Lemma again_tolerance chk p t : In chk (checks o) -> check_reported chk p = Err (InvalidTolerance t) ->
  forall m' chk' q, In chk' (checks (ieee_ops 24 128 Hps Hms m')) -> p_tolerance q = t -> exists e, check_reported chk' q = Err e.
Proof.
  intros HI H m' chk' q HI' Eq. destruct (c103 chk p _ HI H) as (_ & S). unfold check_reported.
  assert (N : fisneg (ieee_ops 24 128 Hps Hms m') (p_tolerance q) = true) by (rewrite Eq; exact S).
  repeat destruct HI' as [<-|HI']; [..|destruct HI']; unfold lasso_check_ref, mt_lasso_check_ref, mcp_check_ref, block_mcp_check_ref, elastic_net_check_ref, mt_elastic_net_check_ref;
  rewrite N; cbv iota; repeat (first [eexists; reflexivity|match goal with |- context [if ?b then _ else _] => destruct b; [eexists; reflexivity|] end]).
Qed.
End O.
Lemma single_exact (chk : params single -> result (params single) (estimator_error single)) p e : check_reported chk p = Err e <-> chk p = Err e.
Proof. unfold check_reported. destruct (chk p) as [q|e']; [split; discriminate|]. rewrite reported_single. tauto. Qed.
