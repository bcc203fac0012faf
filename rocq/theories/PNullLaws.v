(** The laws of [PNull] hold for the extended reals and for IEEE floats. *)
From Coq Require Import List ZArith Bool Arith Lia Reals Lra Permutation.
From Flocq Require Import Core BinarySingleNaN.
From Verif Require Import Ops Arr XR IEEE PBase PLaws SpecSolve PNull.
Import ListNotations.
Local Open Scope R_scope.

Lemma zn_x x : zn xops x <-> x = Fin 0 \/ x = NaN.
Proof.
  unfold zn. cbn. destruct x as [r| | |]; cbn; split; intros [H|H]; try discriminate H; auto; rb; subst; auto.
  - inversion H. left. apply Reqb_refl.
Qed.
Lemma xfold_zn l : (forall x, In x l -> x = Fin 0 \/ x = NaN) -> forall a, a = Fin 0 \/ a = NaN -> fold_left xadd l a = Fin 0 \/ fold_left xadd l a = NaN.
Proof.
  induction l as [|x l IH]; intros H a Ha; simpl; auto. apply IH; [intros; apply H; right; auto|].
  destruct (H x (or_introl eq_refl)) as [->| ->], Ha as [->| ->]; simpl; auto. left. f_equal. ring.
Qed.
Lemma xmul0 x : xmul x (Fin 0) = Fin 0 \/ xmul x (Fin 0) = NaN.
Proof.
  destruct x as [r| | |]; simpl; auto; try (left; f_equal; ring); right; unfold inf_of; rewrite !(proj2 (Rltb_false _ _)) by lra; auto.
Qed.
Lemma combine_repeat_in {A B} (a : list A) (z : B) k x y : In (x, y) (combine a (repeat z k)) -> y = z.
Proof. intros H. apply in_combine_r in H. apply repeat_spec in H. auto. Qed.
Lemma xle_trans x y z : xle x y = true -> xle y z = true -> xle x z = true.
Proof. destruct x, y, z; simpl; try discriminate; auto. intros H1 H2. rb. apply Rleb_spec. lra. Qed.
Lemma xle_max_r x m : xisnan x = true \/ xle x (xmax m x) = true.
Proof. destruct x, m; simpl; auto; right; apply Rleb_spec; try lra. apply Rmax_r. Qed.
Lemma xle_max_l x m : xisnan x = true \/ xle x (xmax x m) = true.
Proof. destruct x, m; simpl; auto; right; apply Rleb_spec; try lra. apply Rmax_l. Qed.
Lemma xle_max_kr a x m : xle a m = true -> xle a (xmax m x) = true.
Proof. destruct a, x, m; simpl; auto; try discriminate; intros H; rb; apply Rleb_spec; try lra. pose proof (Rmax_l r1 r0). lra. Qed.
Lemma xle_max_kl a x m : xle a m = true -> xle a (xmax x m) = true.
Proof. destruct a, x, m; simpl; auto; try discriminate; intros H; rb; apply Rleb_spec; try lra. pose proof (Rmax_r r0 r1). lra. Qed.
Lemma x_max0 x : xlt (Fin 0) x = false -> xmax (Fin 0) x = Fin 0.
Proof. destruct x; simpl; auto; try discriminate. intros H. rb. f_equal. apply Rmax_left. auto. Qed.
Lemma x_sub_le x t : xle x t = true -> xlt (Fin 0) (xsub x t) = false.
Proof. destruct x, t; simpl; auto; try discriminate. intros H. rb. apply Rltb_false. lra. Qed.
Lemma x_nan_sub x t : xisnan x = true -> xlt (Fin 0) (xsub x t) = false.
Proof. destruct x, t; simpl; auto; discriminate. Qed.
Lemma xabs_inf_of a : xabs (inf_of a) = if Reqb a 0 then NaN else PInf.
Proof. unfold inf_of. repeat rcase; simpl; auto; lra. Qed.
Lemma x_div_le b M c : 0 <= c -> xle (xabs b) M = true -> xisnan (xdiv M (Fin c)) = false ->
  xisnan (xabs (xdiv b (Fin c))) = true \/ xle (xabs (xdiv b (Fin c))) (xdiv M (Fin c)) = true.
Proof.
  intros Hc Hb HM. destruct (Reqb c 0) eqn:Ec.
  - destruct b as [b| | |], M as [M| | |]; simpl in *; try discriminate; auto; rewrite ?Ec in *; rewrite ?xabs_inf_of;
      rb; subst c; rewrite ?(proj2 (Rltb_false 0 0)) by lra; auto.
    + destruct (Reqb b 0) eqn:Eb; simpl; auto. right. rb. pose proof (Rabs_pos_lt b Eb). unfold inf_of. rewrite (proj2 (Rltb_spec 0 M)) by lra. reflexivity.
    + destruct (Reqb b 0) eqn:Eb; simpl; auto.
  - destruct b as [b| | |], M as [M| | |]; simpl in *; try discriminate; auto; rewrite ?Ec in *; rb;
      rewrite ?(proj2 (Rltb_false c 0)) by lra; auto. right. simpl. apply Rleb_spec. unfold Rdiv.
    rewrite Rabs_mult, (Rabs_right (/ c)).
    + apply Rmult_le_compat_r; auto. left. apply Rinv_0_lt_compat. lra.
    + left. apply Rinv_0_lt_compat. lra.
Qed.
Lemma xle_notnan x t : xle x t = true -> xisnan x = false.
Proof. destruct x; auto; simpl; discriminate. Qed.
Lemma x_grad z b M n t : zn xops z -> xisnan b = true \/ xle (xabs b) M = true -> xle (xdiv M (xcast n)) t = true ->
  xlt (Fin 0) (xsub (xabs (xdiv (xsub z b) (xcast n))) t) = false.
Proof.
  intros Hz Hb Ht. apply zn_x in Hz. destruct Hz as [->| ->]; [|apply x_nan_sub; reflexivity].
  destruct Hb as [Hb|Hb]; [destruct b; try discriminate; apply x_nan_sub; reflexivity|].
  destruct (x_div_le (xsub (Fin 0) b) M (INR n)) as [H|H].
  - apply pos_INR.
  - replace (xabs (xsub (Fin 0) b)) with (xabs b); auto. destruct b; simpl; auto. f_equal. rewrite <- Rabs_Ropp. f_equal. ring.
  - eapply xle_notnan; eauto.
  - apply x_nan_sub. exact H.
  - apply x_sub_le. eapply xle_trans; eauto.
Qed.
Lemma xr_null : null_laws xops.
Proof.
  split; cbn.
  - apply zn_x. auto.
  - intros a x Ha. apply zn_x in Ha. apply zn_x. destruct (xmul0 x) as [-> | ->], Ha as [-> | ->]; simpl; auto. left. f_equal. ring.
  - intros a k. apply zn_x. unfold xdot, xsum. apply xfold_zn; auto. intros x Hx. unfold map2 in Hx. apply in_map_iff in Hx. destruct Hx as ((u & v) & <- & Hin).
    apply combine_repeat_in in Hin. simpl. subst v. apply xmul0.
  - exact x_grad.
  - intros z b n t Hb. destruct b; try discriminate. apply x_nan_sub. destruct z; reflexivity.
  - apply xle_max_l.
  - apply xle_max_r.
  - apply xle_max_kl.
  - apply xle_max_kr.
  - intros []; reflexivity.
  - exact x_max0.
  - f_equal. apply Rmax_left. lra.
  - reflexivity.
  - intros []; simpl; auto; discriminate.
  - apply Reqb_refl.
Qed.

Section I.
Context (prec emax : Z) (Hp : Prec_gt_0 prec) (Hm : Prec_lt_emax prec emax).
Local Notation bf := (binary_float prec emax).
Local Notation key := (key prec emax).
Local Notation rnd := (round radix2 (SpecFloat.fexp prec emax) (round_mode mode_NE)).

(** rounding with overflow *)
Definition rx (r : R) : xr :=
  if Rltb (Rabs (rnd r)) (bpow radix2 emax) then Fin (rnd r) else if Rltb r 0 then NInf else PInf.
Lemma rnd0 : rnd 0 = 0.
Proof. apply round_0. auto with typeclass_instances. Qed.
Lemma rnd_le a b : a <= b -> rnd a <= rnd b.
Proof using Hp. intros H. apply round_le; auto. apply fexp_correct. exact Hp. auto with typeclass_instances. Qed.
Lemma rnd_pos a : 0 <= a -> 0 <= rnd a.
Proof using Hp. intros H. rewrite <- rnd0. apply rnd_le. auto. Qed.
Lemma rnd_neg a : a <= 0 -> rnd a <= 0.
Proof using Hp. intros H. rewrite <- rnd0. apply rnd_le. auto. Qed.
Lemma rx_le a b : a <= b -> xle (rx a) (rx b) = true.
Proof using Hp.
  intros H. pose proof (rnd_le _ _ H) as HR. pose proof (bpow_gt_0 radix2 emax) as HB. unfold rx.
  destruct (Rltb (Rabs (rnd a)) _) eqn:Ea; destruct (Rltb (Rabs (rnd b)) _) eqn:Eb; rb.
  - simpl. apply Rleb_spec. auto.
  - rcase; auto. exfalso. pose proof (rnd_neg b ltac:(lra)). rewrite (Rabs_left1 (rnd b)) in Eb by lra. rewrite (Rabs_left1 (rnd a)) in Ea by lra. lra.
  - rcase; auto. exfalso. pose proof (rnd_pos a ltac:(lra)). rewrite (Rabs_right (rnd b)) in Eb by lra. rewrite (Rabs_right (rnd a)) in Ea by lra. lra.
  - destruct (Rltb a 0) eqn:E1, (Rltb b 0) eqn:E2; auto. rb. lra.
Qed.
Lemma rx_0 : rx 0 = Fin 0.
Proof. unfold rx. rewrite rnd0, Rabs_R0, (proj2 (Rltb_spec 0 _)); auto. apply bpow_gt_0. Qed.
Lemma rx_abs a : xabs (rx a) = rx (Rabs a).
Proof.
  unfold rx. assert (E : rnd (Rabs a) = Rabs (rnd a)).
  { unfold Rabs at 1. destruct (Rcase_abs a).
    - rewrite round_NE_opp. rewrite Rabs_left1; auto. apply rnd_neg. lra.
    - rewrite Rabs_right; auto. apply Rle_ge. apply rnd_pos. lra. }
  rewrite E, Rabs_Rabsolu. destruct (Rltb (Rabs (rnd a)) _); auto. rewrite (proj2 (Rltb_false (Rabs a) 0)) by (pose proof (Rabs_pos a); lra). rcase; auto.
Qed.
Lemma SF_inf (x : bf) s : B2SF x = SpecFloat.S754_infinity s -> x = B754_infinity s.
Proof. destruct x; simpl; congruence. Qed.
Lemma sign_neg (x : bf) : is_finite x = true -> Bsign x = true -> B2R x <= 0.
Proof.
  destruct x as [s|s| |s m e H]; simpl; try discriminate; intros _ E; try lra. subst s. left. apply F2R_lt_0. simpl. lia.
Qed.
Lemma sign_pos (x : bf) : is_finite x = true -> Bsign x = false -> 0 <= B2R x.
Proof.
  destruct x as [s|s| |s m e H]; simpl; try discriminate; intros _ E; try lra. subst s. left. apply F2R_gt_0. simpl. lia.
Qed.
Lemma key_sub (x y : bf) : is_finite x = true -> is_finite y = true -> key (bsub prec emax Hp Hm x y) = rx (B2R x - B2R y).
Proof.
  intros Hx Hy. unfold rx, bsub. pose proof (Bminus_correct prec emax Hp Hm mode_NE x y Hx Hy) as H. rewrite Rlt_bool_b in H.
  destruct (Rltb _ _) eqn:E.
  - destruct H as (H1 & H2 & _). rewrite key_fin by auto. rewrite H1. reflexivity.
  - destruct H as (H1 & H2). apply SF_inf in H1. rewrite H1. simpl. rb. pose proof (bpow_gt_0 radix2 emax) as HB.
    assert (N : B2R x - B2R y <> 0). { intros N. rewrite N, rnd0, Rabs_R0 in E. lra. }
    destruct (Bsign x) eqn:Sx.
    + pose proof (sign_neg x Hx Sx). symmetry in H2. apply negb_true_iff in H2. pose proof (sign_pos y Hy H2). rewrite (proj2 (Rltb_spec _ 0)) by lra. reflexivity.
    + pose proof (sign_pos x Hx Sx). symmetry in H2. apply negb_false_iff in H2. pose proof (sign_neg y Hy H2). rewrite (proj2 (Rltb_false _ 0)) by lra. reflexivity.
Qed.
Lemma key_div (x y : bf) : is_finite x = true -> is_finite y = true -> 0 < B2R y -> key (bdiv prec emax Hp Hm x y) = rx (B2R x / B2R y).
Proof.
  intros Hx Hy Hpos. unfold rx, bdiv. pose proof (Bdiv_correct prec emax Hp Hm mode_NE x y ltac:(lra)) as H. rewrite Rlt_bool_b in H.
  destruct (Rltb _ _) eqn:E.
  - destruct H as (H1 & H2 & _). rewrite key_fin by congruence. rewrite H1. reflexivity.
  - apply SF_inf in H. rewrite H. simpl. rb. pose proof (bpow_gt_0 radix2 emax) as HB.
    assert (Sy : Bsign y = false). { destruct (Bsign y) eqn:Sy; auto. pose proof (sign_neg y Hy Sy). lra. }
    rewrite Sy, xorb_false_r. assert (HI : 0 < / B2R y) by (apply Rinv_0_lt_compat; auto).
    assert (N : B2R x <> 0). { intros N. rewrite N in E. unfold Rdiv in E. rewrite Rmult_0_l, rnd0, Rabs_R0 in E. lra. }
    unfold Rdiv. destruct (Bsign x) eqn:Sx.
    + pose proof (sign_neg x Hx Sx). rewrite (proj2 (Rltb_spec _ 0)); auto. assert (0 < - B2R x * / B2R y) by (apply Rmult_lt_0_compat; lra). lra.
    + pose proof (sign_pos x Hx Sx). rewrite (proj2 (Rltb_false _ 0)); auto. apply Rmult_le_pos; lra.
Qed.
Lemma key_abs (x : bf) : key (Babs x) = xabs (key x).
Proof.
  destruct x as [s|[]| |s m e H]; try reflexivity; simpl.
  - rewrite Rabs_R0. reflexivity.
  - f_equal. rewrite <- F2R_Zabs. f_equal. destruct s; reflexivity.
Qed.
Lemma cast_cases n : bcast prec emax Hp Hm n = B754_zero false \/ bcast prec emax Hp Hm n = B754_infinity false \/
  (is_finite (bcast prec emax Hp Hm n) = true /\ 0 < B2R (bcast prec emax Hp Hm n)).
Proof.
  unfold bcast, bofZ. destruct n as [|n]; [left; reflexivity|]. right.
  pose proof (binary_normalize_correct prec emax Hp Hm mode_NE (Z.of_nat (S n)) 0 false) as H. cbv zeta in H.
  assert (Hpos : 1 <= F2R (Float radix2 (Z.of_nat (S n)) 0)).
  { unfold F2R. simpl Fnum. simpl Fexp. rewrite Rmult_1_r. apply IZR_le. lia. }
  destruct (Rlt_bool _ _).
  - destruct H as (H1 & H2 & H3). right. split; auto. rewrite Rcompare_Gt in H3 by lra.
    pose proof (sign_pos _ H2 H3) as [H|H]; auto. exfalso. rewrite H1 in H.
    assert (1 <= rnd (F2R (Float radix2 (Z.of_nat (S n)) 0))); [|lra].
    rewrite <- (round_generic radix2 (SpecFloat.fexp prec emax) (round_mode mode_NE) 1).
    + apply rnd_le; auto.
    + change 1 with (bpow radix2 0). apply generic_format_bpow. pose proof (fexp_emax prec emax). 
      unfold SpecFloat.fexp, SpecFloat.emin. unfold Prec_gt_0 in Hp. unfold Prec_lt_emax in Hm. lia.
  - left. rewrite Rlt_bool_false in H by lra. apply SF_inf in H. exact H.
Qed.
Notation o m := (ieee_ops prec emax Hp Hm m).
Lemma zn_b m (x : bf) : zn (o m) x <-> (exists s, x = B754_zero s) \/ x = B754_nan.
Proof.
  unfold zn. cbn. split.
  - intros [H|H]; [left|right]; destruct x as [s|[]| |s mm e HH]; simpl in *; try discriminate; eauto. destruct s; discriminate.
  - intros [(s & ->)| ->]; auto.
Qed.
Lemma b_mul0 (x : bf) : (exists s, bmul prec emax Hp Hm x (bzero prec emax) = B754_zero s) \/ bmul prec emax Hp Hm x (bzero prec emax) = B754_nan.
Proof. unfold bmul, bzero. destruct x as [s|s| |s mm e HH]; simpl; eauto. Qed.
Lemma b_add0 (x y : bf) : (exists s, x = B754_zero s) \/ x = B754_nan -> (exists s, y = B754_zero s) \/ y = B754_nan ->
  (exists s, badd prec emax Hp Hm x y = B754_zero s) \/ badd prec emax Hp Hm x y = B754_nan.
Proof.
  intros [(s & ->)| ->] [(s' & ->)| ->]; unfold badd; simpl; auto. destruct (Bool.eqb s s'); eauto.
Qed.
Lemma tree_zn l r : tree_sum prec emax Hp Hm l r -> (forall x, In x l -> (exists s, x = B754_zero s) \/ x = B754_nan) -> (exists s, r = B754_zero s) \/ r = B754_nan.
Proof.
  induction 1; intros HA.
  - left. exists false. reflexivity.
  - apply HA. left. auto.
  - apply b_add0; [apply IHtree_sum1|apply IHtree_sum2]; intros; apply HA; apply in_or_app; auto.
  - apply IHtree_sum. intros x Hx. apply HA. eapply Permutation_in; eauto.
Qed.
Lemma b_sub_le (x t : bf) : Bleb x t = true -> Bltb (bzero prec emax) (bsub prec emax Hp Hm x t) = false.
Proof.
  rewrite key_le, key_lt. intros H. destruct (is_finite x) eqn:Ex; [destruct (is_finite t) eqn:Et|].
  - rewrite key_sub by auto. rewrite !key_fin in H by auto. simpl in H. rb.
    pose proof (rx_le (B2R x - B2R t) 0 ltac:(lra)) as HL. rewrite rx_0 in HL. destruct (rx _); simpl in *; auto; try discriminate. rb. apply Rltb_false. auto.
  - rewrite (key_fin _ _ x) in H by auto. destruct t as [s|[]| |]; try discriminate; destruct x as [s'|[]| |]; try discriminate; reflexivity.
  - destruct x as [s|[]| |]; try discriminate; destruct t as [s'|[]| |[]]; try discriminate; reflexivity.
Qed.
Lemma b_nan_sub (x t : bf) : is_nan x = true -> Bltb (bzero prec emax) (bsub prec emax Hp Hm x t) = false.
Proof. destruct x as [s|[]| |]; try discriminate. intros _. destruct t as [s'|[]| |]; reflexivity. Qed.
Lemma b_div_le (b M c : bf) : c = B754_zero false \/ c = B754_infinity false \/ (is_finite c = true /\ 0 < B2R c) ->
  Bleb (Babs b) M = true -> is_nan (bdiv prec emax Hp Hm M c) = false ->
  is_nan (Babs (bdiv prec emax Hp Hm b c)) = true \/ Bleb (Babs (bdiv prec emax Hp Hm b c)) (bdiv prec emax Hp Hm M c) = true.
Proof.
  intros [->|[->|(Hc & Hpos)]] Hb HM.
  - destruct b as [s|s| |s mb eb Hb']; simpl; auto; destruct M as [s'|[]| |[] mm em Hm']; simpl in *; try discriminate; auto; destruct s; auto.
  - destruct b as [s|s| |s mb eb Hb']; simpl; auto; destruct M as [s'|[]| |[] mm em Hm']; simpl in *; try discriminate; auto; try (destruct s; discriminate); destruct s; auto; destruct s'; auto.
  - rewrite key_le, key_abs in Hb. rewrite key_le, !key_abs, <- key_nan, key_abs. rewrite <- key_nan in HM.
    assert (HI : 0 < / B2R c) by (apply Rinv_0_lt_compat; auto).
    destruct (is_finite b) eqn:Eb.
    + rewrite key_div by auto. rewrite rx_abs. destruct (is_finite M) eqn:EM.
      * rewrite key_div by auto. right. apply rx_le. rewrite !key_fin in Hb by auto. simpl in Hb. rb. unfold Rdiv. rewrite Rabs_mult, (Rabs_right (/ _)) by lra. apply Rmult_le_compat_r; lra.
      * rewrite (key_fin _ _ b) in Hb by auto. destruct M as [s|[]| |]; try discriminate.
        assert (E : key (bdiv prec emax Hp Hm (B754_infinity false) c) = PInf).
        { destruct c as [s|s| |s mc ec Hc']; try discriminate; simpl in *; try lra. destruct s; auto. exfalso. assert (F2R (Float radix2 (Z.neg mc) ec) < 0) by (apply F2R_lt_0; simpl; lia). simpl in *. lra. }
        rewrite E. right. unfold rx. rcase; auto. rewrite (proj2 (Rltb_false _ 0)); auto. apply Rabs_pos.
    + assert (EM : M = B754_infinity false). { destruct b as [s|[]| |]; try discriminate; destruct M as [s'|[]| |]; try discriminate; auto. }
      subst M. assert (Sc : Bsign c = false). { destruct (Bsign c) eqn:Sy; auto. pose proof (sign_neg c Hc Sy). lra. }
      destruct c as [s|s| |s mc ec Hc']; try discriminate; simpl in *; try lra. subst s. destruct b as [s'|[]| |]; try discriminate; simpl; auto.
Qed.
Lemma abs_minus0 s (b : bf) : Babs (bsub prec emax Hp Hm (B754_zero s) b) = Babs b.
Proof. unfold bsub. destruct b as [s'|s'| |]; simpl; auto. destruct (Bool.eqb s (negb s')); reflexivity. Qed.
Lemma b_grad m z b M n t : zn (o m) z -> is_nan b = true \/ Bleb (Babs b) M = true -> Bleb (bdiv prec emax Hp Hm M (bcast prec emax Hp Hm n)) t = true ->
  Bltb (bzero prec emax) (bsub prec emax Hp Hm (Babs (bdiv prec emax Hp Hm (bsub prec emax Hp Hm z b) (bcast prec emax Hp Hm n))) t) = false.
Proof.
  intros Hz Hb Ht. apply zn_b in Hz. destruct Hz as [(s & ->)| ->].
  - destruct Hb as [Hb|Hb]; [destruct b; try discriminate; apply b_nan_sub; reflexivity|].
    destruct (b_div_le (bsub prec emax Hp Hm (B754_zero s) b) M (bcast prec emax Hp Hm n)) as [H|H].
    + apply cast_cases.
    + rewrite abs_minus0. exact Hb.
    + rewrite key_le in Ht. rewrite <- key_nan. eapply xle_notnan; eauto.
    + apply b_nan_sub. exact H.
    + apply b_sub_le. rewrite key_le in *. eapply xle_trans; eauto.
  - apply b_nan_sub. reflexivity.
Qed.
Lemma key_max x y : key (bmax prec emax x y) = xmax (key x) (key y).
Proof.
  unfold bmax. rewrite <- !key_nan, key_lt. destruct (key x) as [a| | |] eqn:Ex, (key y) as [b| | |] eqn:Ey; simpl; rewrite ?Ex, ?Ey; auto.
  rcase; rewrite ?Ex, ?Ey; f_equal; symmetry; [apply Rmax_right|apply Rmax_left]; lra.
Qed.
Lemma ieee_null m : reduces prec emax Hp Hm m -> null_laws (o m).
Proof.
  intros (_ & _ & RD & _). split; cbn.
  - apply zn_b. left. exists false. reflexivity.
  - intros a x Ha. apply zn_b in Ha. apply zn_b. apply b_add0; auto. apply b_mul0.
  - intros a k. apply zn_b. eapply tree_zn; [apply RD|]. intros x Hx. unfold map2 in Hx. apply in_map_iff in Hx. destruct Hx as ((u & v) & <- & Hin).
    apply combine_repeat_in in Hin. simpl. subst v. apply b_mul0.
  - apply b_grad.
  - intros z b n t Hb. destruct b; try discriminate. apply b_nan_sub. destruct z; reflexivity.
  - intros x mm. rewrite <- key_nan, key_le, key_max. apply xle_max_l.
  - intros x mm. rewrite <- key_nan, key_le, key_max. apply xle_max_r.
  - intros a x mm. rewrite !key_le, key_max. apply xle_max_kl.
  - intros a x mm. rewrite !key_le, key_max. apply xle_max_kr.
  - intros []; reflexivity.
  - intros x Hx. unfold bmax. rewrite Hx. simpl. destruct (is_nan x); reflexivity.
  - reflexivity.
  - reflexivity.
  - intros t. rewrite !key_le. destruct (key t); simpl; auto; discriminate.
  - reflexivity.
Qed.
End I.
