(** Rounding errors of the basic operations and of reductions. *)
From Coq Require Import List ZArith Bool Arith Lia Reals Lra Permutation.
From Flocq Require Import Core BinarySingleNaN Relative Plus_error.
From Verif Require Import Ops Arr IEEE SpecPen SpecRound PNullLaws MUtils.
Import ListNotations.
Open Scope R_scope.

Section I.
Context (prec emax : Z) (Hp : Prec_gt_0 prec) (Hm : Prec_lt_emax prec emax).
Local Notation bf := (binary_float prec emax).
Local Notation fl := (fl prec emax).
Local Notation u := (urd prec).
Local Notation eta := (tiny prec emax).
Local Notation fmt := (generic_format radix2 (FLT_exp (3 - emax - prec) prec)).
Local Notation badd := (badd prec emax Hp Hm).
Local Notation bsub := (bsub prec emax Hp Hm).
Local Notation bmul := (bmul prec emax Hp Hm).
Local Notation bdiv := (bdiv prec emax Hp Hm).

Lemma u_pos : 0 < u. Proof. apply bpow_gt_0. Qed.
Lemma eta_pos : 0 < eta. Proof. apply bpow_gt_0. Qed.
Lemma u_le1 : u <= 1 / 2.
Proof using Hp. unfold urd. replace (1 / 2) with (bpow radix2 (-1)) by (simpl; lra). apply bpow_le. unfold Prec_gt_0 in Hp. lia. Qed.
Instance vexp : Valid_exp (FLT_exp (3 - emax - prec) prec).
Proof using Hp. apply FLT_exp_valid. exact Hp. Qed.
Lemma fmt_val (x : bf) : fmt (B2R x).
Proof. exact (generic_format_B2R prec emax x). Qed.
Lemma fl_id x : fmt x -> fl x = x.
Proof. intros H. apply round_generic; auto with typeclass_instances. Qed.
Lemma fl_le a b : a <= b -> fl a <= fl b.
Proof using Hp. intros H. apply round_le; auto with typeclass_instances. Qed.
Lemma fl_0 : fl 0 = 0. Proof. apply round_0. auto with typeclass_instances. Qed.
Lemma fl_opp x : fl (- x) = - fl x. Proof. apply round_NE_opp. Qed.
Lemma fl_abs x : fl (Rabs x) = Rabs (fl x).
Proof using Hp.
  unfold Rabs at 1. destruct (Rcase_abs x) as [H|H].
  - rewrite fl_opp. assert (fl x <= 0) by (rewrite <- fl_0; apply fl_le; lra). rewrite Rabs_left1; auto.
  - assert (0 <= fl x) by (rewrite <- fl_0; apply fl_le; lra). rewrite Rabs_right; auto; lra.
Qed.
(** one rounding *)
Lemma fl_err x : Rabs (fl x - x) <= u * Rabs x + eta.
Proof using Hp.
  destruct (error_N_FLT radix2 (3 - emax - prec) prec Hp (fun t => negb (Z.even t)) x) as (e & h & He & Hh & _ & E).
  change (round radix2 (FLT_exp (3 - emax - prec) prec) ZnearestE x = x * (1 + e) + h) in E. unfold SpecRound.fl. rewrite E.
  replace (x * (1 + e) + h - x) with (x * e + h) by ring. eapply Rle_trans; [apply Rabs_triang|].
  apply Rplus_le_compat.
  - rewrite Rabs_mult, Rmult_comm. apply Rmult_le_compat_r; [apply Rabs_pos|]. eapply Rle_trans; [exact He|].
    unfold urd. replace (- prec + 1)%Z with (1 + - prec)%Z by lia. rewrite bpow_plus. simpl (bpow radix2 1). lra.
  - eapply Rle_trans; [exact Hh|]. unfold tiny. replace (3 - emax - prec)%Z with (1 + (2 - emax - prec))%Z by lia. rewrite bpow_plus. simpl (bpow radix2 1). lra.
Qed.
(** one addition *)
Lemma fl_plus_err x y : fmt x -> fmt y -> Rabs (fl (x + y) - (x + y)) <= u * Rabs (x + y).
Proof using Hp.
  intros Hx Hy. destruct (FLT_plus_error_N_ex radix2 (3 - emax - prec) prec (fun t => negb (Z.even t)) x y Hx Hy) as (e & He & E).
  change (round radix2 (FLT_exp (3 - emax - prec) prec) ZnearestE (x + y) = (x + y) * (1 + e)) in E. unfold SpecRound.fl. rewrite E.
  replace ((x + y) * (1 + e) - (x + y)) with ((x + y) * e) by ring. rewrite Rabs_mult, Rmult_comm. apply Rmult_le_compat_r; [apply Rabs_pos|].
  eapply Rle_trans; [exact He|]. eapply Rle_trans; [apply u_rod1pu_ro_le_u_ro|]. unfold u_ro, urd.
  replace (- prec + 1)%Z with (1 + - prec)%Z by lia. rewrite bpow_plus. simpl (bpow radix2 1). lra.
Qed.

(** *** operations with a finite result *)
Lemma ovf_inf (z : bf) m s : B2SF z = binary_overflow prec emax m s -> m = mode_NE -> is_finite z = false.
Proof. intros H ->. unfold binary_overflow in H. simpl in H. destruct z; simpl in H; try discriminate; reflexivity. Qed.
Lemma add_fin (x y : bf) : is_finite (badd x y) = true -> is_finite x = true /\ is_finite y = true /\ B2R (badd x y) = fl (B2R x + B2R y).
Proof.
  intros H. assert (Fx : is_finite x = true). { destruct x as [s|s| |s m e b]; auto; destruct y as [s'|s'| |s' m' e' b']; simpl in H; try discriminate; destruct s, s'; discriminate. }
  assert (Fy : is_finite y = true). { destruct y as [s|s| |s m e b]; auto; destruct x as [s'|s'| |s' m' e' b']; simpl in H; discriminate. }
  split; [exact Fx|split; [exact Fy|]]. pose proof (Bplus_correct prec emax Hp Hm mode_NE x y Fx Fy) as C.
  destruct (Rlt_bool _ _); [exact (proj1 C)|]. destruct C as [C _]. apply ovf_inf in C; auto. unfold IEEE.badd in H. congruence.
Qed.
Lemma sub_fin (x y : bf) : is_finite (bsub x y) = true -> is_finite x = true /\ is_finite y = true /\ B2R (bsub x y) = fl (B2R x - B2R y).
Proof.
  intros H. assert (Fx : is_finite x = true). { destruct x as [s|s| |s m e b]; auto; destruct y as [s'|s'| |s' m' e' b']; simpl in H; try discriminate; destruct s, s'; discriminate. }
  assert (Fy : is_finite y = true). { destruct y as [s|s| |s m e b]; auto; destruct x as [s'|s'| |s' m' e' b']; simpl in H; discriminate. }
  split; [exact Fx|split; [exact Fy|]]. pose proof (Bminus_correct prec emax Hp Hm mode_NE x y Fx Fy) as C.
  destruct (Rlt_bool _ _); [exact (proj1 C)|]. destruct C as [C _]. apply ovf_inf in C; auto. unfold IEEE.bsub in H. congruence.
Qed.
Lemma mul_fin (x y : bf) : is_finite (bmul x y) = true -> is_finite x = true /\ is_finite y = true /\ B2R (bmul x y) = fl (B2R x * B2R y).
Proof.
  intros H. assert (Fx : is_finite x = true). { destruct x as [s|s| |s m e b]; auto; destruct y as [s'|s'| |s' m' e' b']; simpl in H; discriminate. }
  assert (Fy : is_finite y = true). { destruct y as [s|s| |s m e b]; auto; destruct x as [s'|s'| |s' m' e' b']; simpl in H; discriminate. }
  split; [exact Fx|split; [exact Fy|]]. pose proof (Bmult_correct prec emax Hp Hm mode_NE x y) as C.
  destruct (Rlt_bool _ _); [exact (proj1 C)|]. apply ovf_inf in C; auto. unfold IEEE.bmul in H. congruence.
Qed.
Lemma div_fin (x y : bf) : is_finite (bdiv x y) = true -> is_finite y = true -> is_finite x = true /\ B2R y <> 0 /\ B2R (bdiv x y) = fl (B2R x / B2R y).
Proof.
  intros H Fy. assert (Ny : B2R y <> 0).
  { intros E. destruct y as [s|s| |s m e b]; try discriminate Fy.
    - destruct x as [s'|s'| |s' m' e' b']; simpl in H; discriminate.
    - apply eq_0_F2R in E. destruct s; discriminate. }
  assert (Fx : is_finite x = true). { destruct x as [s|s| |s m e b]; auto; destruct y as [s'|s'| |s' m' e' b']; simpl in H; discriminate. }
  split; [exact Fx|split; [exact Ny|]]. pose proof (Bdiv_correct prec emax Hp Hm mode_NE x y Ny) as C.
  destruct (Rlt_bool _ _); [exact (proj1 C)|]. apply ovf_inf in C; auto. unfold IEEE.bdiv in H. congruence.
Qed.
Lemma add_round (x y : bf) : is_finite x = true -> is_finite y = true -> Rabs (fl (B2R x + B2R y)) < bpow radix2 emax -> nearest prec emax (badd x y) (B2R x + B2R y).
Proof.
  intros Fx Fy H. pose proof (Bplus_correct prec emax Hp Hm mode_NE x y Fx Fy) as C. rewrite Rlt_bool_true in C by exact H. split; apply C.
Qed.
Lemma sub_round (x y : bf) : is_finite x = true -> is_finite y = true -> Rabs (fl (B2R x - B2R y)) < bpow radix2 emax -> nearest prec emax (bsub x y) (B2R x - B2R y).
Proof.
  intros Fx Fy H. pose proof (Bminus_correct prec emax Hp Hm mode_NE x y Fx Fy) as C. rewrite Rlt_bool_true in C by exact H. split; apply C.
Qed.
(** casts of small integers are exact *)
Lemma cast_exact n : (Z.of_nat n <= 2 ^ prec)%Z -> is_finite (bcast prec emax Hp Hm n) = true /\ B2R (bcast prec emax Hp Hm n) = INR n.
Proof.
  intros H. unfold bcast, bofZ. pose proof (binary_normalize_correct prec emax Hp Hm mode_NE (Z.of_nat n) 0 false) as C. cbv zeta in C.
  assert (E : F2R (Float radix2 (Z.of_nat n) 0) = INR n) by (unfold F2R; simpl; rewrite Rmult_1_r, <- INR_IZR_INZ; reflexivity).
  rewrite E in C. unfold Prec_gt_0 in Hp. unfold Prec_lt_emax in Hm.
  assert (L : INR n <= bpow radix2 prec).
  { rewrite INR_IZR_INZ. replace (bpow radix2 prec) with (IZR (2 ^ prec)). apply IZR_le. exact H. rewrite <- IZR_Zpower by lia. reflexivity. }
  assert (G : fmt (INR n)).
  { destruct (Req_dec (INR n) (bpow radix2 prec)) as [Eq|Ne].
    - rewrite Eq. apply generic_format_bpow. unfold FLT_exp. lia.
    - apply generic_format_FLT. exists (Float radix2 (Z.of_nat n) 0).
      + symmetry. exact E.
      + simpl. rewrite Z.abs_eq by lia. apply lt_IZR. rewrite <- INR_IZR_INZ. change 2%Z with (radix_val radix2). rewrite IZR_Zpower by lia. lra.
      + change (3 - emax - prec <= 0)%Z. clear - Hp Hm. unfold Prec_gt_0 in Hp. unfold Prec_lt_emax in Hm. lia. }
  assert (R0 : round radix2 (SpecFloat.fexp prec emax) (round_mode mode_NE) (INR n) = INR n) by exact (fl_id (INR n) G).
  rewrite R0 in C. rewrite Rlt_bool_true in C. destruct C as (C1 & C2 & _). auto.
  rewrite Rabs_right by (apply Rle_ge, pos_INR). eapply Rle_lt_trans; [exact L|]. apply bpow_lt. exact Hm.
Qed.

(** *** sums *)
Lemma rel_0 : rel u 0 = 0. Proof. unfold rel. simpl. ring. Qed.
Lemma rel_pos k : 0 <= rel u k.
Proof. unfold rel. pose proof u_pos. assert (1 <= (1 + u) ^ k) by (apply pow_R1_Rle; lra). lra. Qed.
Lemma rel_mono j k : (j <= k)%nat -> rel u j <= rel u k.
Proof. intros H. unfold rel. pose proof u_pos. assert ((1 + u) ^ j <= (1 + u) ^ k) by (apply Rle_pow; [lra|exact H]). lra. Qed.
Lemma rel_S k : rel u (S k) = (1 + u) * (1 + rel u k) - 1.
Proof. unfold rel. simpl. ring. Qed.
Lemma pow_1u k : (1 + u) ^ k = 1 + rel u k. Proof. unfold rel. ring. Qed.
Lemma rsum_app a b : rsum (a ++ b) = rsum a + rsum b.
Proof. induction a as [|x a IH]; simpl; [ring|]. rewrite IH. ring. Qed.
Lemma rsum_perm a b : Permutation a b -> rsum a = rsum b.
Proof. induction 1; simpl; lra. Qed.
Lemma rsum_abs l : Rabs (rsum l) <= rsum (map Rabs l).
Proof. induction l as [|x l IH]; simpl; [rewrite Rabs_R0; lra|]. eapply Rle_trans; [apply Rabs_triang|lra]. Qed.
Lemma rsum_abs_pos l : 0 <= rsum (map Rabs l).
Proof. eapply Rle_trans; [apply Rabs_pos|apply rsum_abs]. Qed.

Lemma tree_err l r : tree_sum prec emax Hp Hm l r -> is_finite r = true ->
  Forall (finite prec emax) l /\ Rabs (B2R r - rsum (val prec emax l)) <= rel u (Nat.pred (length l)) * rsum (map Rabs (val prec emax l)).
Proof.
  induction 1 as [|x|l1 l2 r1 r2 T1 IH1 T2 IH2|l1 l2 r P T IH]; intros F.
  - split; [constructor|]. simpl. rewrite rel_0, Rminus_0_r, Rabs_R0. lra.
  - split; [repeat constructor; exact F|]. simpl. rewrite rel_0. replace (B2R x - (B2R x + 0)) with 0 by ring. rewrite Rabs_R0. lra.
  - apply add_fin in F as (F1 & F2 & E). destruct (IH1 F1) as [A1 B1]. destruct (IH2 F2) as [A2 B2].
    split; [apply Forall_app; auto|]. unfold val in *. rewrite !map_app, !rsum_app, E, app_length.
    set (s1 := rsum (map B2R l1)) in *. set (s2 := rsum (map B2R l2)) in *. set (a1 := rsum (map Rabs (map B2R l1))) in *. set (a2 := rsum (map Rabs (map B2R l2))) in *.
    assert (P1 : 0 <= a1) by apply rsum_abs_pos. assert (P2 : 0 <= a2) by apply rsum_abs_pos.
    destruct l1 as [|x1 l1].
    + simpl length. simpl (0 + _)%nat. assert (Z1 : B2R r1 = 0). { subst s1 a1. simpl in B1. rewrite rel_0, Rminus_0_r in B1. apply Rabs_eq_R0. pose proof (Rabs_pos (B2R r1)). lra. }
      assert (s1 = 0) by reflexivity. assert (a1 = 0) by reflexivity. rewrite Z1, Rplus_0_l, fl_id by apply fmt_val. rewrite H, H0, !Rplus_0_l. exact B2.
    + destruct l2 as [|x2 l2].
      * simpl (length []). rewrite Nat.add_0_r. assert (Z2 : B2R r2 = 0). { subst s2 a2. simpl in B2. rewrite rel_0, Rminus_0_r in B2. apply Rabs_eq_R0. pose proof (Rabs_pos (B2R r2)). lra. }
        assert (s2 = 0) by reflexivity. assert (a2 = 0) by reflexivity. rewrite Z2, Rplus_0_r, fl_id by apply fmt_val. rewrite H, H0, !Rplus_0_r. exact B1.
      * set (k1 := Nat.pred (length (x1 :: l1))) in *. set (k2 := Nat.pred (length (x2 :: l2))) in *.
        set (k := Nat.pred (length (x1 :: l1) + length (x2 :: l2))). set (k' := Nat.pred k).
        assert (K : k = S k') by (unfold k', k; simpl; lia). assert (K1 : (k1 <= k')%nat) by (unfold k', k, k1; simpl; lia). assert (K2 : (k2 <= k')%nat) by (unfold k', k, k2; simpl; lia).
        pose proof (rel_mono _ _ K1) as M1. pose proof (rel_mono _ _ K2) as M2. pose proof (rel_pos k') as M0.
        pose proof (fl_plus_err (B2R r1) (B2R r2) (fmt_val r1) (fmt_val r2)) as EP.
        assert (Q1 : Rabs (B2R r1 - s1) <= rel u k' * a1) by (eapply Rle_trans; [exact B1|apply Rmult_le_compat_r; auto]).
        assert (Q2 : Rabs (B2R r2 - s2) <= rel u k' * a2) by (eapply Rle_trans; [exact B2|apply Rmult_le_compat_r; auto]).
        pose proof (rsum_abs (map B2R (x1 :: l1))) as T1'. fold s1 a1 in T1'. pose proof (rsum_abs (map B2R (x2 :: l2))) as T2'. fold s2 a2 in T2'.
        rewrite K, rel_S. pose proof u_pos as U.
        assert (D : Rabs (B2R r1 + B2R r2 - (s1 + s2)) <= rel u k' * (a1 + a2)).
        { replace (B2R r1 + B2R r2 - (s1 + s2)) with ((B2R r1 - s1) + (B2R r2 - s2)) by ring. eapply Rle_trans; [apply Rabs_triang|]. lra. }
        assert (N : Rabs (B2R r1 + B2R r2) <= (1 + rel u k') * (a1 + a2)).
        { replace (B2R r1 + B2R r2) with ((B2R r1 + B2R r2 - (s1 + s2)) + (s1 + s2)) by ring. eapply Rle_trans; [apply Rabs_triang|].
          pose proof (Rabs_triang s1 s2). lra. }
        replace (fl (B2R r1 + B2R r2) - (s1 + s2)) with ((fl (B2R r1 + B2R r2) - (B2R r1 + B2R r2)) + (B2R r1 + B2R r2 - (s1 + s2))) by ring.
        eapply Rle_trans; [apply Rabs_triang|]. assert (u * Rabs (B2R r1 + B2R r2) <= u * ((1 + rel u k') * (a1 + a2))) by (apply Rmult_le_compat_l; lra). lra.
  - destruct (IH F) as [A B]. split; [eapply Permutation_Forall; eauto|]. unfold val in *.
    rewrite <- (Permutation_length P). rewrite <- (rsum_perm _ _ (Permutation_map B2R P)). rewrite <- (rsum_perm _ _ (Permutation_map Rabs (Permutation_map B2R P))). exact B.
Qed.

(** *** dot products *)
Lemma adot_pos a b : 0 <= adot a b.
Proof. revert b. induction a as [|x a IH]; intros [|y b]; simpl; try lra. pose proof (Rabs_pos (x * y)). specialize (IH b). lra. Qed.
Lemma dotp_adot a b : Rabs (dotp a b) <= adot a b.
Proof. revert b. induction a as [|x a IH]; intros [|y b]; simpl; try (rewrite Rabs_R0; lra). eapply Rle_trans; [apply Rabs_triang|]. specialize (IH b). lra. Qed.
Lemma map2_cons {A B C} (f : A -> B -> C) x a y b : map2 f (x :: a) (y :: b) = f x y :: map2 f a b. Proof. reflexivity. Qed.
Lemma prods_err a b : Forall (finite prec emax) (map2 bmul a b) -> length a = length b ->
  Forall (finite prec emax) a /\ Forall (finite prec emax) b /\
  Rabs (rsum (val prec emax (map2 bmul a b)) - dotp (val prec emax a) (val prec emax b)) <= u * adot (val prec emax a) (val prec emax b) + INR (length a) * eta /\
  rsum (map Rabs (val prec emax (map2 bmul a b))) <= (1 + u) * adot (val prec emax a) (val prec emax b) + INR (length a) * eta.
Proof.
  revert b. induction a as [|x a IH]; intros [|y b] F L; try discriminate L.
  - unfold map2. simpl. rewrite Rminus_0_r, Rabs_R0. repeat split; try constructor; lra.
  - rewrite map2_cons in *. inversion F as [|? ? F1 F2]; subst. injection L as L. destruct (IH b F2 L) as (A & B & C & D). apply mul_fin in F1 as (Fx & Fy & E).
    split; [constructor; auto|split; [constructor; auto|]]. unfold val in *. cbn [map rsum fold_right dotp adot length]. rewrite S_INR. rewrite E.
    fold (rsum (map B2R (map2 bmul a b))). fold (rsum (map Rabs (map B2R (map2 bmul a b)))).
    pose proof (fl_err (B2R x * B2R y)) as EF. set (v := fl (B2R x * B2R y)) in *. set (p := B2R x * B2R y) in *.
    split.
    + replace (v + rsum (map B2R (map2 bmul a b)) - (p + dotp (map B2R a) (map B2R b))) with ((v - p) + (rsum (map B2R (map2 bmul a b)) - dotp (map B2R a) (map B2R b))) by ring.
      eapply Rle_trans; [apply Rabs_triang|]. lra.
    + assert (Rabs v <= Rabs (v - p) + Rabs p). { replace v with ((v - p) + p) at 1 by ring. apply Rabs_triang. } lra.
Qed.
Lemma tree_dot_err a b r : length a = length b -> tree_sum prec emax Hp Hm (map2 bmul a b) r -> is_finite r = true ->
  Forall (finite prec emax) a /\ Forall (finite prec emax) b /\
  Rabs (B2R r - dotp (val prec emax a) (val prec emax b)) <= rel u (length a) * adot (val prec emax a) (val prec emax b) + (1 + u) ^ length a * (INR (length a) * eta).
Proof.
  intros L T F. destruct (tree_err _ _ T F) as [A B]. destruct (prods_err a b A L) as (Fa & Fb & C & D). split; [exact Fa|split; [exact Fb|]].
  assert (LM : length (map2 bmul a b) = length a) by (unfold map2; rewrite map_length, combine_length; lia).
  rewrite LM in B. set (n := length a) in *. set (S0 := rsum (val prec emax (map2 bmul a b))) in *. set (A0 := adot (val prec emax a) (val prec emax b)) in *.
  set (D0 := dotp (val prec emax a) (val prec emax b)) in *. set (m := INR n * eta) in *.
  pose proof (rel_pos (Nat.pred n)) as R0. pose proof (rel_pos n) as R1. pose proof u_pos as U. assert (Pm : 0 <= m) by (apply Rmult_le_pos; [apply pos_INR|left; apply eta_pos]).
  assert (PA : 0 <= A0) by apply adot_pos.
  replace (B2R r - D0) with ((B2R r - S0) + (S0 - D0)) by ring. eapply Rle_trans; [apply Rabs_triang|].
  assert (X : rel u (Nat.pred n) * rsum (map Rabs (val prec emax (map2 bmul a b))) <= rel u (Nat.pred n) * ((1 + u) * A0 + m)) by (apply Rmult_le_compat_l; auto).
  assert (Y : rel u (Nat.pred n) * ((1 + u) * A0 + m) + (u * A0 + m) <= rel u n * A0 + (1 + u) ^ n * m).
  { destruct n as [|n'] eqn:En.
    - assert (A0 = 0). { unfold A0. destruct a; [reflexivity|discriminate En]. } assert (m = 0) by (unfold m; simpl; ring). rewrite H, H0. lra.
    - simpl Nat.pred. rewrite rel_S, pow_1u, rel_S. assert (0 <= rel u n') by apply rel_pos. assert (0 <= u * (1 + rel u n') * m) by (apply Rmult_le_pos; [apply Rmult_le_pos; lra|exact Pm]). nra. }
  lra.
Qed.

(** *** soft thresholding *)
Lemma lt_fin (x y : bf) : is_finite x = true -> is_finite y = true -> Bltb x y = true <-> B2R x < B2R y.
Proof. intros Fx Fy. rewrite Bltb_correct by auto. split; intros H; [destruct (Rlt_bool_spec (B2R x) (B2R y)); [auto|discriminate]|apply Rlt_bool_true; auto]. Qed.
Definition st (x t : R) : R := if Rlt_dec t x then x - t else if Rlt_dec x (- t) then x + t else 0.
Lemma st_min x t : 0 <= t -> strong_min 1 (prox_obj (abs_pen t) x) (st x t).
Proof.
  intros Ht z. unfold prox_obj, abs_pen, st. destruct (Rlt_dec t x); [|destruct (Rlt_dec x (- t))].
  - rewrite (Rabs_right (x - t)) by lra. pose proof (Rle_abs z). nra.
  - rewrite (Rabs_left (x + t)) by lra. pose proof (Rle_abs (- z)) as Q. rewrite Rabs_Ropp in Q. nra.
  - rewrite Rabs_R0. pose proof (Rle_abs z). pose proof (Rle_abs (- z)) as Q. rewrite Rabs_Ropp in Q. assert (z * x <= t * Rabs z). { destruct (Rle_dec 0 z); [rewrite Rabs_right by lra; nra|rewrite Rabs_left by lra; nra]. } nra.
Qed.
Lemma st_abs x t : 0 <= t -> Rabs (st x t) <= Rabs x.
Proof. intros Ht. unfold st. destruct (Rlt_dec t x); [|destruct (Rlt_dec x (- t))]; [rewrite !Rabs_right by lra; lra|rewrite !Rabs_left by lra; lra|rewrite Rabs_R0; apply Rabs_pos]. Qed.
Lemma st_mono x y t : 0 <= t -> x <= y -> st x t <= st y t.
Proof. intros Ht H. unfold st. destruct (Rlt_dec t x), (Rlt_dec t y), (Rlt_dec x (- t)), (Rlt_dec y (- t)); lra. Qed.
Lemma st_lip x t t' : 0 <= t -> 0 <= t' -> Rabs (st x t - st x t') <= Rabs (t - t').
Proof.
  intros H H'. unfold st. assert (Rabs (t - t') = Rabs (t' - t)) by apply Rabs_minus_sym. pose proof (Rle_abs (t - t')). pose proof (Rle_abs (t' - t)).
  destruct (Rlt_dec t x), (Rlt_dec t' x), (Rlt_dec x (- t)), (Rlt_dec x (- t')); try lra; apply Rabs_le; lra.
Qed.
Lemma fl_small x (y : bf) : is_finite y = true -> Rabs x <= Rabs (B2R y) -> Rabs (fl x) <= Rabs (B2R y).
Proof using Hp.
  intros Fy H. rewrite <- fl_abs. rewrite <- (fl_id (Rabs (B2R y))). apply fl_le. exact H. apply generic_format_abs. apply fmt_val.
Qed.
Lemma soft_round m (x t : bf) : is_finite x = true -> is_finite t = true -> 0 <= B2R t ->
  nearest prec emax (soft_thresholding (ieee_ops prec emax Hp Hm m) x t) (st (B2R x) (B2R t)).
Proof.
  intros Fx Ft Ht. unfold soft_thresholding. cbn [ieee_ops flt fsub fadd fneg f0].
  assert (Fo : is_finite (Bopp t) = true) by (rewrite is_finite_Bopp; exact Ft). assert (Eo : B2R (Bopp t) = - B2R t) by apply B2R_Bopp.
  pose proof (abs_B2R_lt_emax prec emax x) as BX.
  assert (B : forall z, Rabs z <= Rabs (B2R x) -> Rabs (fl z) < bpow radix2 emax) by (intros z Hz; eapply Rle_lt_trans; [exact (fl_small z x Fx Hz)|exact BX]).
  unfold st. destruct (Rlt_dec (B2R t) (B2R x)) as [H1|H1].
  - rewrite (proj2 (lt_fin t x Ft Fx) H1). apply sub_round; auto. apply B. rewrite !Rabs_right by lra. lra.
  - destruct (Bltb t x) eqn:E1; [apply (lt_fin t x Ft Fx) in E1; lra|].
    destruct (Rlt_dec (B2R x) (- B2R t)) as [H2|H2].
    + rewrite (proj2 (lt_fin x (Bopp t) Fx Fo)) by (rewrite Eo; exact H2). apply add_round; auto. apply B. rewrite !Rabs_left by lra. lra.
    + destruct (Bltb x (Bopp t)) eqn:E2; [apply (lt_fin x _ Fx Fo) in E2; rewrite Eo in E2; lra|]. split; [reflexivity|]. rewrite fl_0. reflexivity.
Qed.
Lemma soft_zero m (x t : bf) : is_finite x = true -> is_finite t = true -> 0 <= B2R t ->
  (B2R (soft_thresholding (ieee_ops prec emax Hp Hm m) x t) = 0 <-> Rabs (B2R x) <= B2R t).
Proof.
  intros Fx Ft Ht. destruct (soft_round m x t Fx Ft Ht) as [_ E]. rewrite E. unfold st. pose proof (Rle_abs (B2R x)). pose proof (Rle_abs (- B2R x)) as Q. rewrite Rabs_Ropp in Q.
  destruct (Rlt_dec (B2R t) (B2R x)) as [H1|H1]; [|destruct (Rlt_dec (B2R x) (- B2R t)) as [H2|H2]].
  - split; intros Z; [|lra]. exfalso. apply (round_plus_neq_0 radix2 (FLT_exp (3 - emax - prec) prec) ZnearestE (B2R x) (- B2R t)); [apply fmt_val|apply generic_format_opp; apply fmt_val|lra|exact Z].
  - split; intros Z; [|lra]. exfalso. apply (round_plus_neq_0 radix2 (FLT_exp (3 - emax - prec) prec) ZnearestE (B2R x) (B2R t)); [apply fmt_val|apply fmt_val|lra|exact Z].
  - split; intros Z; [|apply fl_0]. apply Rabs_le. lra.
Qed.
End I.
