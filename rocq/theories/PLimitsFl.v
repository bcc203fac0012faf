(** An elastic net whose [l1_ratio] is one, in floating point: every formula of the penalty gives the same bits as for the Lasso. *)
From Coq Require Import List ZArith Bool Arith Reals Lra Lia Permutation.
From Flocq Require Import Core BinarySingleNaN.
From Verif Require Import Ops Arr IEEE MUtils MPenalties PBase.
Import ListNotations.
Open Scope R_scope.

Section Fl.
Context (prec emax : Z) (Hp : Prec_gt_0 prec) (Hm : Prec_lt_emax prec emax) (m : libm prec emax).
Local Notation bf := (binary_float prec emax).
Local Notation o := (ieee_ops prec emax Hp Hm m).
Local Notation badd := (badd prec emax Hp Hm).
Local Notation bsub := (bsub prec emax Hp Hm).
Local Notation bmul := (bmul prec emax Hp Hm).
Local Notation bdiv := (bdiv prec emax Hp Hm).
Local Notation bone := (bone prec emax Hp Hm).
Local Notation fl := (round radix2 (FLT_exp (3 - emax - prec) prec) ZnearestE).
Definition unit_ (u : bf) : Prop := is_finite u = true /\ Rabs (B2R u) = 1.

Lemma one_unit : unit_ bone.
Proof. split; [apply is_finite_Bone|]. unfold IEEE.bone. rewrite Bone_correct. apply Rabs_R1. Qed.
Lemma opp_unit u : unit_ u -> unit_ (Bopp u).
Proof. intros [A B]. split; [rewrite is_finite_Bopp; auto|]. rewrite B2R_Bopp, Rabs_Ropp. auto. Qed.
Lemma unit_shape u : unit_ u -> exists s mm e H, u = B754_finite s mm e H.
Proof. intros [A B]. destruct u as [s|s| |s mm e H]; cbn in *; try discriminate; [rewrite Rabs_R0 in B; lra|]. eauto. Qed.
Lemma fl_self (x : bf) r : Rabs r = Rabs (B2R x) -> fl r = r /\ Rabs r < bpow radix2 emax.
Proof.
  intros E. split; [|rewrite E; apply abs_B2R_lt_emax].
  apply round_generic; [apply valid_rnd_N|]. destruct (Rcase_abs r) as [N|N]; [rewrite Rabs_left in E by lra|rewrite Rabs_right in E by lra]; destruct (Rcase_abs (B2R x)) as [M|M]; [rewrite Rabs_left in E by lra|rewrite Rabs_right in E by lra|rewrite Rabs_left in E by lra|rewrite Rabs_right in E by lra].
  - replace r with (B2R x) by lra. apply generic_format_B2R.
  - replace r with (- B2R x) by lra. apply generic_format_opp, generic_format_B2R.
  - replace r with (- B2R x) by lra. apply generic_format_opp, generic_format_B2R.
  - replace r with (B2R x) by lra. apply generic_format_B2R.
Qed.
Lemma unit_mul u x : unit_ u -> is_finite x = true -> is_finite (bmul u x) = true /\ B2R (bmul u x) = B2R u * B2R x /\ Bsign (bmul u x) = xorb (Bsign u) (Bsign x).
Proof.
  intros [Fu Eu] Fx. pose proof (Bmult_correct prec emax Hp Hm mode_NE u x) as C. cbn [round_mode] in C.
  destruct (fl_self x (B2R u * B2R x)) as [E1 E2]; [rewrite Rabs_mult, Eu; ring|]. change (SpecFloat.fexp prec emax) with (FLT_exp (3 - emax - prec) prec) in C. rewrite E1 in C. rewrite Rlt_bool_true in C by auto. destruct C as (A & B & D). rewrite Fu, Fx in B.
  split; [exact B|]. split; [exact A|]. apply D. destruct (Bmult mode_NE u x); auto; discriminate.
Qed.
Lemma mul_unit u x : unit_ u -> is_finite x = true -> is_finite (bmul x u) = true /\ B2R (bmul x u) = B2R u * B2R x /\ Bsign (bmul x u) = xorb (Bsign u) (Bsign x).
Proof.
  intros [Fu Eu] Fx. pose proof (Bmult_correct prec emax Hp Hm mode_NE x u) as C. cbn [round_mode] in C.
  destruct (fl_self x (B2R x * B2R u)) as [E1 E2]; [rewrite Rabs_mult, Eu; ring|]. change (SpecFloat.fexp prec emax) with (FLT_exp (3 - emax - prec) prec) in C. rewrite E1 in C. rewrite Rlt_bool_true in C by auto. destruct C as (A & B & D). rewrite Fu, Fx in B.
  split; [exact B|]. split; [rewrite Rmult_comm; exact A|]. rewrite xorb_comm. apply D. destruct (Bmult mode_NE x u); auto; discriminate.
Qed.
Lemma unit_comm u x : unit_ u -> bmul u x = bmul x u.
Proof.
  intros U. destruct (is_finite x) eqn:Fx.
  - destruct (unit_mul u x U Fx) as (A & B & C). destruct (mul_unit u x U Fx) as (A' & B' & C'). apply B2R_Bsign_inj; auto; congruence.
  - destruct (unit_shape u U) as (s & mm & e & H & ->). destruct x; try discriminate; cbn; auto. rewrite xorb_comm. auto.
Qed.
Lemma mul1l x : bmul bone x = x.
Proof.
  destruct (is_finite x) eqn:Fx.
  - destruct (unit_mul bone x one_unit Fx) as (A & B & C). apply B2R_Bsign_inj; auto.
    + rewrite B. unfold IEEE.bone. rewrite Bone_correct. ring.
    + rewrite C. unfold IEEE.bone. rewrite Bsign_Bone. destruct (Bsign x); auto.
  - pose proof (Bsign_Bone prec emax Hp Hm) as S. destruct (unit_shape bone one_unit) as (s & mm & e & H & E). rewrite E. unfold IEEE.bone in E. rewrite E in S. cbn in S. subst s. destruct x as [[]|[]| |]; try discriminate; cbn; auto.
Qed.
Lemma mul1r x : bmul x bone = x.
Proof. rewrite <- (unit_comm bone x one_unit). apply mul1l. Qed.
Lemma div1 x : bdiv x bone = x.
Proof.
  destruct (is_finite x) eqn:Fx.
  - pose proof (Bdiv_correct prec emax Hp Hm mode_NE x bone) as C. cbn [round_mode] in C. assert (E0 : B2R bone = 1) by apply Bone_correct. rewrite E0 in C. specialize (C ltac:(lra)).
    destruct (fl_self x (B2R x / 1)) as [E1 E2]; [f_equal; field|]. change (SpecFloat.fexp prec emax) with (FLT_exp (3 - emax - prec) prec) in C. rewrite E1 in C. rewrite Rlt_bool_true in C by auto. destruct C as (A & B & D). apply B2R_Bsign_inj; auto.
    + unfold IEEE.bdiv. rewrite B. auto.
    + unfold IEEE.bdiv. rewrite A. field.
    + unfold IEEE.bdiv. rewrite D; [|destruct (Bdiv mode_NE x bone); auto; rewrite Fx in B; discriminate]. unfold IEEE.bone. rewrite Bsign_Bone. destruct (Bsign x); auto.
  - pose proof (Bsign_Bone prec emax Hp Hm) as S. destruct (unit_shape bone one_unit) as (s & mm & e & H & E). rewrite E. unfold IEEE.bone in E. rewrite E in S. cbn in S. subst s. destruct x as [s|s| |]; try discriminate; cbn; auto. rewrite xorb_false_r. auto.
Qed.
Lemma one_minus : bsub bone bone = B754_zero false.
Proof.
  pose proof (Bminus_correct prec emax Hp Hm mode_NE bone bone (is_finite_Bone prec emax Hp Hm) (is_finite_Bone prec emax Hp Hm)) as C. cbn [round_mode] in C.
  rewrite Rminus_diag_eq, round_0, Rabs_R0, Rlt_bool_true in C by (auto; try apply valid_rnd_N; apply bpow_gt_0). destruct C as (A & B & D).
  rewrite Rcompare_Eq in D by auto. unfold IEEE.bone in D at 3 4. rewrite Bsign_Bone in D. cbn in D.
  unfold IEEE.bsub. apply B2R_Bsign_inj; auto.
Qed.
Lemma mul_zero x s : is_finite x = true -> exists s', bmul x (B754_zero s) = B754_zero s'.
Proof. destruct x; cbn; intros; try discriminate; eauto. Qed.
Lemma zero_mul x s : is_finite x = true -> exists s', bmul (B754_zero s) x = B754_zero s'.
Proof. destruct x; cbn; intros; try discriminate; eauto. Qed.
Lemma unit_add0 u s : unit_ u -> badd u (B754_zero s) = u.
Proof. intros U. destruct (unit_shape u U) as (s' & mm & e & H & ->). reflexivity. Qed.
Lemma sign_unit (x : bf) : is_nan x = false -> unit_ (bsignum prec emax Hp Hm x).
Proof. intros H. unfold bsignum. rewrite H. destruct (Bsign x); [apply opp_unit|]; apply one_unit. Qed.

Lemma ratio_one_prox_fl (a v t : bf) : is_finite a = true -> is_finite t = true -> l1l2_prox o (L1PlusL2 a (f1 o)) v t = l1_prox o (L1 a) v t.
Proof.
  intros Fa Ft. unfold l1l2_prox, l1_prox. cbn [en_alpha en_l1_ratio l1_alpha ieee_ops f1 fmul fdiv fadd fsub]. rewrite mul1l, one_minus.
  destruct (mul_zero t false Ft) as (s1 & ->). destruct (zero_mul a s1 Fa) as (s2 & ->). rewrite unit_add0 by apply one_unit. apply div1.
Qed.
Lemma ratio_one_score_fl (a w g : bf) : is_finite w = true -> l1l2_score o (L1PlusL2 a (f1 o)) w g = l1_score o (L1 a) w g.
Proof.
  intros Fw. unfold l1l2_score, l1_score. cbn [en_alpha en_l1_ratio l1_alpha ieee_ops f1 f0 fmul fdiv fadd fsub feq fmax fabs fneg fsignum]. rewrite !mul1r, one_minus.
  destruct (Beqb _ _); auto. destruct (zero_mul w false Fw) as (s1 & ->). assert (N : is_nan w = false) by (destruct w; auto; discriminate).
  rewrite unit_add0 by (apply sign_unit; auto). rewrite <- (unit_comm _ a (sign_unit w N)). auto.
Qed.

(** sums of numbers without sign *)
Lemma add_pos (x y : bf) : Bsign x = false -> Bsign y = false -> Bsign (badd x y) = false.
Proof.
  intros Sx Sy. destruct (is_finite x) eqn:Fx, (is_finite y) eqn:Fy.
  - pose proof (Bplus_correct prec emax Hp Hm mode_NE x y Fx Fy) as C. destruct (Rlt_bool _ _).
    + destruct C as (_ & _ & D). unfold IEEE.badd. rewrite D, Sx, Sy. cbn. destruct (Rcompare_spec (B2R x + B2R y) 0); auto.
      assert (P : forall z : bf, is_finite z = true -> Bsign z = false -> 0 <= B2R z).
      { intros z Fz Sz. destruct z as [s|s| |s mm e Hb]; try discriminate; cbn in *; [lra|]. subst s. unfold F2R. cbn. apply Rmult_le_pos; [apply IZR_le; lia|left; apply bpow_gt_0]. }
      pose proof (P x Fx Sx). pose proof (P y Fy Sy). lra.
    + destruct C as (C & _). unfold IEEE.badd. rewrite Sx in C. destruct (Bplus mode_NE x y); cbn in C; unfold binary_overflow in C; cbn in C; try discriminate C; inversion C; auto.
  - destruct y; try discriminate; cbn in *; subst; destruct x; try discriminate; cbn in *; subst; auto.
  - destruct x; try discriminate; cbn in *; subst; destruct y; try discriminate; cbn in *; subst; auto.
  - destruct x; try discriminate; destruct y; try discriminate; cbn in *; subst; auto.
Qed.
Lemma tree_pos l r : tree_sum prec emax Hp Hm l r -> Forall (fun x => Bsign x = false) l -> Bsign r = false.
Proof.
  intros T. induction T as [|x|l1 l2 r1 r2 T1 IH1 T2 IH2|l1 l2 r P T IH]; intros H; auto.
  - inversion H; auto.
  - apply Forall_app in H as [A B]. apply add_pos; auto.
  - apply IH. eapply Permutation_Forall; [apply Permutation_sym, P|auto].
Qed.
Lemma half_fin : is_finite (blit prec emax Hp Hm 1 2) = true.
Proof.
  unfold blit, IEEE.bdiv.
  assert (Q : forall z, (1 <= z <= 2)%Z -> is_finite (bofZ prec emax Hp Hm z) = true /\ B2R (bofZ prec emax Hp Hm z) = IZR z).
  { intros z Hz. unfold bofZ. pose proof (binary_normalize_correct prec emax Hp Hm mode_NE z 0 false) as C. cbn [round_mode] in C.
    assert (E : F2R (Float radix2 z 0) = IZR z) by (unfold F2R; cbn; ring). rewrite E in C.
    assert (G : fl (IZR z) = IZR z).
    { apply round_generic; [apply valid_rnd_N|]. assert (z = 1 \/ z = 2)%Z as [->| ->] by lia.
      - change 1 with (bpow radix2 0). apply generic_format_bpow. unfold FLT_exp. unfold Prec_gt_0, Prec_lt_emax in *. lia.
      - change 2 with (bpow radix2 1). apply generic_format_bpow. unfold FLT_exp. unfold Prec_gt_0, Prec_lt_emax in *. lia. }
    change (SpecFloat.fexp prec emax) with (FLT_exp (3 - emax - prec) prec) in C. rewrite G in C. rewrite Rlt_bool_true in C.
    - destruct C as (A & B & _). auto.
    - apply Rle_lt_trans with (bpow radix2 1); [rewrite <- abs_IZR; cbn; apply IZR_le; lia|]. apply bpow_lt. unfold Prec_gt_0, Prec_lt_emax in *. lia. }
  destruct (Q 1%Z ltac:(lia)) as [F1 V1]. destruct (Q 2%Z ltac:(lia)) as [F2 V2].
  pose proof (Bdiv_correct prec emax Hp Hm mode_NE (bofZ prec emax Hp Hm 1) (bofZ prec emax Hp Hm 2)) as C. rewrite V2, V1 in C. specialize (C ltac:(lra)).
  rewrite Rlt_bool_true in C; [destruct C as (_ & B & _); rewrite B; auto|]. cbn [round_mode].
  apply Rle_lt_trans with (bpow radix2 0).
  - apply abs_round_le_generic; [apply FLT_exp_valid; auto|apply valid_rnd_N|apply generic_format_bpow; unfold SpecFloat.fexp, FLT_exp; unfold Prec_gt_0, Prec_lt_emax, SpecFloat.emin in *; lia|]. cbn. rewrite Rabs_right; lra.
  - apply bpow_lt. unfold Prec_gt_0, Prec_lt_emax in *. lia.
Qed.
Lemma pos_add0 (x : bf) s : Bsign x = false -> badd x (B754_zero s) = x.
Proof. destruct x as [s'|s'| |s' mm e H]; cbn; intros E; subst; auto. destruct s; auto. Qed.
Lemma ratio_one_value_fl (a : bf) w : reduces prec emax Hp Hm m -> is_finite (ndot o w w) = true -> l1l2_value o (L1PlusL2 a (f1 o)) w = l1_value o (L1 a) w.
Proof.
  intros RD Fd. unfold l1l2_value, l1_value. cbn [en_alpha en_l1_ratio l1_alpha ieee_ops f1 f0 fmul fadd fsub flit isum ndot fabs] in *. rewrite mul1l, one_minus.
  destruct (mul_zero _ false half_fin) as (s1 & ->). destruct (zero_mul _ s1 Fd) as (s2 & ->). rewrite pos_add0; auto.
  apply (tree_pos (map Babs w)); [apply RD|]. apply Forall_forall. intros x Hx. apply in_map_iff in Hx as (z & <- & _). destruct z; auto.
Qed.
End Fl.
Lemma ratio_one_floats prec emax (Hp : Prec_gt_0 prec) (Hm : Prec_lt_emax prec emax) lm : let o := ieee_ops prec emax Hp Hm lm in
  (forall a v t, is_finite a = true -> is_finite t = true -> pen_prox (l1l2_penalty o) (L1PlusL2 a (f1 o)) v t = pen_prox (l1_penalty o) (L1 a) v t) /\
  (forall a w g ws, Forall (fun x => is_finite x = true) w -> pen_subdiff_distance (l1l2_penalty o) (L1PlusL2 a (f1 o)) w g ws = pen_subdiff_distance (l1_penalty o) (L1 a) w g ws) /\
  (forall a w, reduces prec emax Hp Hm lm -> is_finite (ndot o w w) = true -> pen_value (l1l2_penalty o) (L1PlusL2 a (f1 o)) w = pen_value (l1_penalty o) (L1 a) w).
Proof.
  intros o. split; [|split].
  - intros a v t Fa Ft. apply ratio_one_prox_fl; auto.
  - intros a w g ws Fw. cbn [pen_subdiff_distance l1l2_penalty l1_penalty]. unfold scores. f_equal.
    apply mapM_ext. intros [gj j] _. cbn [fst snd]. unfold vget. destruct (nth_error w j) as [wj|] eqn:E; auto. cbn [bind]. f_equal. apply ratio_one_score_fl.
    rewrite Forall_forall in Fw. apply Fw. eapply nth_error_In; eauto.
  - intros a w RD Fd. apply ratio_one_value_fl; auto.
Qed.
