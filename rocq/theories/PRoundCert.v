(** What a passed stopping test certifies in floating point. *)
From Coq Require Import List ZArith Bool Arith Lia Reals Lra Permutation.
From Flocq Require Import Core BinarySingleNaN.
From Verif Require Import Ops Arr XR IEEE RSum SpecPen SpecRound SpecData SpecSolve SpecOpt SpecTrace SpecDrift PBase PLaws PNullLaws PSubdiff PFloat PRoundFit PRoundKkt PRoundTop PTrace PDrift PDriftInst PData PDataProps PDatafit PCalc PFitOpt PCert MUtils MDatasets MDatafits MPenalties MCd MHyper MEstimators.
Import ListNotations.
Open Scope R_scope.

Section I.
Context (prec emax : Z) (Hp : Prec_gt_0 prec) (Hm : Prec_lt_emax prec emax) (m : libm prec emax).
Local Notation bf := (binary_float prec emax).
Local Notation o := (ieee_ops prec emax Hp Hm m).
Local Notation u := (urd prec).
Local Notation eta := (tiny prec emax).
Local Notation val := (val prec emax).
Local Notation atR := (atR prec emax).
Local Notation finite := (finite prec emax).
Local Notation drift := (drift prec emax).
Local Notation bsub := (bsub prec emax Hp Hm).
Local Notation bdiv := (bdiv prec emax Hp Hm).
Local Notation bmul := (bmul prec emax Hp Hm).
Local Notation badd := (badd prec emax Hp Hm).
Local Notation key := (key prec emax).

Lemma Sum_Rabs k f : Rabs (Sum k f) <= Sum k (fun i => Rabs (f i)).
Proof. induction k; rewrite ?Sum_S, ?Sum_0; [rewrite Rabs_R0; lra|]. eapply Rle_trans; [apply Rabs_triang|]. lra. Qed.
Lemma sub_num (x y : bf) : finite x -> finite y -> is_nan (bsub x y) = false.
Proof.
  intros Fx Fy. pose proof (Bminus_correct prec emax Hp Hm mode_NE x y Fx Fy) as C. destruct (Rlt_bool _ _).
  - destruct C as (_ & C & _). unfold IEEE.bsub. destruct (Bminus mode_NE x y); try discriminate; reflexivity.
  - destruct C as [C _]. unfold IEEE.bsub. destruct (Bminus mode_NE x y) as [s|s| |s mm e b]; try reflexivity. unfold binary_overflow in C. destruct (overflow_to_inf _ _); discriminate C.
Qed.
Lemma sgn_mul (w a : bf) : finite w -> finite a -> B2R w <> 0 -> finite (bmul (bsignum prec emax Hp Hm w) a).
Proof.
  intros Fw Fa N. destruct (sign_val prec emax Hp Hm w Fw N) as [Fs Es]. pose proof (Bmult_correct prec emax Hp Hm mode_NE (bsignum prec emax Hp Hm w) a) as C.
  assert (A : Rabs (B2R (bsignum prec emax Hp Hm w) * B2R a) = Rabs (B2R a)) by (rewrite Es; unfold rsign; destruct (Rltb (B2R w) 0); [replace (-1 * B2R a) with (- B2R a) by ring; apply Rabs_Ropp|rewrite Rmult_1_l; reflexivity]).
  rewrite Rlt_bool_true in C.
  - destruct C as (_ & C & _). unfold SpecRound.finite, IEEE.bmul. rewrite C, Fs, Fa. reflexivity.
  - eapply Rle_lt_trans; [apply (fl_small prec emax Hp _ a Fa); rewrite A; apply Rle_refl|apply abs_B2R_lt_emax].
Qed.
(** a score below a finite tolerance comes from a finite gradient *)
Lemma score_fin (wj g a tol : bf) : finite wj -> finite a -> is_nan g = false -> finite tol -> (is_nan (l1_score o (L1 a) wj g) = false -> Bleb (l1_score o (L1 a) wj g) tol = true) ->
  finite g /\ finite (l1_score o (L1 a) wj g).
Proof.
  intros Fw Fa Ng Ft H.
  assert (TOP : forall x : bf, x = B754_infinity false -> Bleb x tol = true -> False). { intros x -> Q. destruct tol as [s|s| |s mm e b]; try discriminate Ft; destruct s; discriminate Q. }
  assert (Fg : finite g).
  { destruct g as [s|s| |s mm e b]; try reflexivity; [|discriminate Ng]. exfalso. unfold l1_score in H. cbn [l1_alpha ieee_ops feq f0 fmax fsub fabs fneg fmul fsignum] in H. destruct (Beqb wj (bzero prec emax)) eqn:Ew.
    - assert (E : bmax prec emax (bzero prec emax) (bsub (Babs (B754_infinity s)) a) = B754_infinity false) by (destruct a as [sa|sa| |sa ma ea ba]; try discriminate Fa; destruct sa; reflexivity).
      rewrite E in H. exact (TOP _ eq_refl (H eq_refl)).
    - assert (E : Babs (bsub (Bopp (B754_infinity s)) (bmul (bsignum prec emax Hp Hm wj) a)) = B754_infinity false).
      { assert (FM : finite (bmul (bsignum prec emax Hp Hm wj) a)).
        { apply sgn_mul; auto. intros Q. rewrite key_eq, (key_fin prec emax wj Fw), Q in Ew. change (key (bzero prec emax)) with (Fin 0) in Ew. cbn [xeq] in Ew. rewrite (proj2 (Reqb_spec 0 0) eq_refl) in Ew. discriminate. }
        destruct (bmul (bsignum prec emax Hp Hm wj) a) as [sa|sa| |sa ma ea ba]; try discriminate FM; destruct s, sa; reflexivity. }
      rewrite E in H. exact (TOP _ eq_refl (H eq_refl)). }
  split; [exact Fg|]. unfold l1_score in *. cbn [l1_alpha ieee_ops feq f0 fmax fsub fabs fneg fmul fsignum] in *. destruct (Beqb wj (bzero prec emax)) eqn:Ew.
  - assert (Nb : is_nan (bsub (Babs g) a) = false) by (apply sub_num; [unfold SpecRound.finite; rewrite is_finite_Babs; exact Fg|exact Fa]).
    destruct (bsub (Babs g) a) as [s|[]| |[] mm e b]; try discriminate Nb; try reflexivity. exfalso. exact (TOP _ eq_refl (H eq_refl)).
  - assert (Nw : B2R wj <> 0). { intros Q. rewrite key_eq, (key_fin prec emax wj Fw), Q in Ew. change (key (bzero prec emax)) with (Fin 0) in Ew. cbn [xeq] in Ew. rewrite (proj2 (Reqb_spec 0 0) eq_refl) in Ew. discriminate. }
    assert (Nb : is_nan (bsub (Bopp g) (bmul (bsignum prec emax Hp Hm wj) a)) = false) by (apply sub_num; [unfold SpecRound.finite; rewrite is_finite_Bopp; exact Fg|exact (sgn_mul wj a Fw Fa Nw)]).
    destruct (bsub (Bopp g) _) as [s|s| |s mm e b]; try discriminate Nb; try reflexivity. exfalso. exact (TOP _ eq_refl (H eq_refl)).
Qed.

(** *** any design *)
Section G.
Context {DM D : Type} (df : Datafit bf DM D) (ds : dataset DM bf) (d : D) (n p : nat) (E : nat -> nat -> R) (y : nat -> R) (w Xw : list bf).
(** computed gradients are near the exact gradient at the maintained fit *)
Hypothesis (GE : forall j g, (j < p)%nat -> df_gradient_j df d ds Xw j = Ret g -> finite g ->
  (forall i, (i < n)%nat -> E i j = 0 \/ finite (nth i Xw (f0 o))) /\
  Rabs (B2R g - (Sum n (fun i => E i j * atR Xw i) - Sum n (fun i => E i j * y i)) / INR n) <=
    rel u (n + 2) * (Sum n (fun i => Rabs (E i j) * (Rabs (atR Xw i) + Rabs (y i))) / INR n) + 3 * (1 + u) ^ (n + 2) * eta).
Lemma exact_grad M j g : (0 < n)%nat -> (j < p)%nat -> tracks prec emax E p n M (w, Xw) -> df_gradient_j df d ds Xw j = Ret g -> finite g ->
  Rabs (B2R g - gq n E (fun i _ => y i) (fun i _ => lin p E (atR w) i) j 0%nat) <= slack prec emax E p n y (atR w) M j.
Proof using GE.
  intros Pn Hj (LX & HT) Eg Fg. cbn [fst snd] in *. destruct (GE j g Hj Eg Fg) as [HF B]. apply lt_INR in Pn. change (INR 0) with 0 in Pn. assert (I : 0 < / INR n) by (apply Rinv_0_lt_compat; exact Pn).
  assert (T : forall i, (i < n)%nat -> E i j <> 0 -> Rabs (atR Xw i - lin p E (atR w) i) <= drift E M i).
  { intros i Hi Ne. destruct (HF i Hi) as [Q|Q]; [contradiction|]. rewrite (atR_nth prec emax Hp Hm m). apply HT; [|exact Q]. apply nth_error_nth'. lia. }
  assert (T1 : forall i, (i < n)%nat -> Rabs (E i j * (atR Xw i - lin p E (atR w) i)) <= Rabs (E i j) * drift E M i).
  { intros i Hi. rewrite Rabs_mult. destruct (Req_dec (E i j) 0) as [Z|Ne]; [rewrite Z, Rabs_R0; lra|]. apply Rmult_le_compat_l; [apply Rabs_pos|exact (T i Hi Ne)]. }
  assert (T2 : forall i, (i < n)%nat -> Rabs (E i j) * (Rabs (atR Xw i) + Rabs (y i)) <= Rabs (E i j) * (Rabs (lin p E (atR w) i) + drift E M i + Rabs (y i))).
  { intros i Hi. destruct (Req_dec (E i j) 0) as [Z|Ne]; [rewrite Z, Rabs_R0; lra|]. apply Rmult_le_compat_l; [apply Rabs_pos|]. pose proof (abs_le_near _ _ _ (T i Hi Ne)). lra. }
  unfold gq, slack. set (S1 := Sum n (fun i => E i j * y i)) in *.
  eapply Rle_trans; [apply (abs_mid _ ((Sum n (fun i => E i j * atR Xw i) - S1) / INR n) _ _ (Sum n (fun i => Rabs (E i j) * drift E M i) / INR n) B)|].
  - replace ((Sum n (fun i => E i j * atR Xw i) - S1) / INR n - (Sum n (fun i => E i j * lin p E (atR w) i) - S1) / INR n) with (Sum n (fun i => E i j * (atR Xw i - lin p E (atR w) i)) / INR n).
    + unfold Rdiv. rewrite Rabs_mult, (Rabs_right (/ INR n)) by lra. apply Rmult_le_compat_r; [lra|]. eapply Rle_trans; [apply Sum_Rabs|]. apply Sum_le. exact T1.
    + replace (Sum n (fun i => E i j * (atR Xw i - lin p E (atR w) i))) with (Sum n (fun i => E i j * atR Xw i) - Sum n (fun i => E i j * lin p E (atR w) i)); [field; lra|]. rewrite <- Sum_minus. apply Sum_ext. intros. ring.
  - apply Rplus_le_compat_r, Rplus_le_compat_r. apply Rmult_le_compat_l; [apply rel_pos|]. apply Rmult_le_compat_r; [lra|]. apply Sum_le. exact T2.
Qed.
Lemma certified M a tol : (0 < n)%nat -> finite a -> 0 <= B2R a -> finite tol -> length w = p -> (forall x, In x w -> finite x) ->
  tracks prec emax E p n M (w, Xw) -> tested o df (l1_penalty o) ds d (L1 a) p tol true (w, Xw) ->
  (forall j g, (j < p)%nat -> df_gradient_j df d ds Xw j = Ret g -> is_nan g = false) ->
  forall eps, (forall j, (j < p)%nat -> B2R tol + (1 + u) * slack prec emax E p n y (atR w) M j <= (1 - u) * eps) ->
  stationary eps (loss1 Squared n y) p E (pen1 (LassoPen (B2R a))) (atR w).
Proof using GE.
  intros Pn Fa Ha Ft Lw Fw HT (kkt & mx & EO & EL) NN eps HE j Hj. cbn [fst snd] in *.
  assert (LK : length kkt = p). { rewrite <- (seq_length p 0). apply (ocv_len df (l1_penalty o) ds d (L1 a)) in EO; [exact EO|]. intros w0 g ws sc mm Lg. cbn [l1_penalty pen_subdiff_distance]. unfold scores. destruct (mapM _ _) as [l|] eqn:Em; [|discriminate]. cbn [bind]. intros Q. injection Q as <- _. apply mapM_inv in Em. assert (Q : length l = length (combine g ws)) by (clear - Em; induction Em; cbn [length]; congruence). rewrite Q, combine_length. lia. }
  destruct (nth_error kkt j) as [sc|] eqn:Ek; [|apply nth_error_None in Ek; lia].
  destruct (violation_at prec emax Hp Hm m df ds w Xw (seq 0 p) d a kkt mx j sc EO Ek) as (j' & wj & g & Ej & Ew & Eg & Es).
  assert (j' = j). { rewrite (nth_error_nth' _ 0%nat) in Ej by (rewrite seq_length; exact Hj). rewrite seq_nth in Ej by exact Hj. injection Ej as <-. reflexivity. } subst j'.
  pose proof (Fw wj (nth_error_In _ _ Ew)) as Fwj. pose proof (NN j g Hj Eg) as Ng.
  assert (E0 : mx = fold_max o (fninf o) kkt).
  { unfold opt_cond_violation in EO. destruct (construct_grad df ds Xw (seq 0 p) d) as [gr|]; [|discriminate]. cbn [bind l1_penalty pen_subdiff_distance] in EO. unfold scores in EO. destruct (mapM _ _) as [sc'|]; [|discriminate]. cbn [bind] in EO. injection EO as <- <-. reflexivity. }
  assert (SL : is_nan sc = false -> Bleb sc tol = true).
  { intros Ns. pose proof (fold_max_ge prec emax Hp Hm m kkt (fninf o) sc (nth_error_In _ _ Ek) Ns) as Q. rewrite <- E0 in Q. cbn [ieee_ops fle] in EL. rewrite key_le in Q, EL |- *. exact (xle_trans _ _ _ Q EL). }
  subst sc. destruct (score_fin wj g a tol Fwj Fa Ng Ft SL) as [Fg Fs].
  pose proof (exact_grad M j g Pn Hj HT Eg Fg) as EG. destruct (score_dist prec emax Hp Hm m wj g a _ _ Fwj Fg Fa Ha Fs EG) as (dist & ID & BD).
  exists dist. split.
  - exists (gq n E (fun i _ => y i) (fun i _ => lin p E (atR w) i) j 0%nat). split; [apply (quad_deriv n p E y (atR w) j); [lia|exact Hj]|].
    assert (EW : atR w j = B2R wj) by (rewrite (atR_nth prec emax Hp Hm m); f_equal; apply nth_error_nth; exact Ew). rewrite EW. exact ID.
  - assert (Ns : is_nan (l1_score o (L1 a) wj g) = false) by (unfold SpecRound.finite in Fs; destruct (l1_score o (L1 a) wj g); auto; discriminate).
    specialize (SL Ns). rewrite key_le, (key_fin prec emax _ Fs), (key_fin prec emax _ Ft) in SL. cbn [xle] in SL. apply Rleb_spec in SL.
    specialize (HE j Hj). pose proof (u_le1 prec Hp) as U2. pose proof (u_pos prec) as U. set (sl := slack prec emax E p n y (atR w) M j) in *. set (sv := B2R (l1_score o (L1 a) wj g)) in *.
    assert (Q : - (sv - dist) <= u * dist + (1 + u) * sl). { pose proof (Rle_abs (- (sv - dist))) as Q. rewrite Rabs_Ropp in Q. lra. }
    assert (Q2 : (1 - u) * dist <= (1 - u) * eps) by lra. apply Rmult_le_reg_l in Q2; lra.
Qed.
End G.

(** *** gradients of the squared loss *)
Lemma dotp_Sum : forall k a b, length a = k -> length b = k -> dotp a b = Sum k (fun i => nth i a 0 * nth i b 0).
Proof.
  induction k as [|k IH]; intros [|x a] [|z b] L1 L2; try discriminate; [reflexivity|]. cbn [dotp]. injection L1 as L1. injection L2 as L2. rewrite (IH a b L1 L2).
  change (S k) with (1 + k)%nat. rewrite Sum_add, Sum_S, Sum_0. cbn [nth Nat.add]. ring.
Qed.
Lemma adot_Sum : forall k a b, length a = k -> length b = k -> adot a b = Sum k (fun i => Rabs (nth i a 0) * Rabs (nth i b 0)).
Proof.
  induction k as [|k IH]; intros [|x a] [|z b] L1 L2; try discriminate; [reflexivity|]. cbn [adot]. injection L1 as L1. injection L2 as L2. rewrite (IH a b L1 L2).
  change (S k) with (1 + k)%nat. rewrite Sum_add, Sum_S, Sum_0. cbn [nth Nat.add]. rewrite Rabs_mult. ring.
Qed.
Lemma core_err n (d b : bf) D B A1 A2 : (Z.of_nat n <= 2 ^ prec)%Z -> finite (bdiv (bsub d b) (bcast prec emax Hp Hm n)) ->
  Rabs (B2R d - D) <= dot_err prec emax n A1 -> Rabs (B2R b - B) <= dot_err prec emax n A2 -> Rabs D <= A1 -> Rabs B <= A2 ->
  Rabs (B2R (bdiv (bsub d b) (bcast prec emax Hp Hm n)) - (D - B) / INR n) <= rel u (n + 2) * ((A1 + A2) / INR n) + 3 * (1 + u) ^ (n + 2) * eta.
Proof.
  intros Hn F Ed Eb HD HB. destruct (cast_exact prec emax Hp Hm n Hn) as [FN EN]. destruct (div_fin prec emax Hp Hm _ _ F FN) as (_ & Nz & _). assert (Pn : 0 < INR n) by (rewrite EN in Nz; pose proof (pos_INR n); lra).
  eapply Rle_trans; [exact (sub_div_err prec emax Hp Hm _ _ _ _ _ _ _ _ F FN EN Pn Ed Eb)|].
  assert (HDB : Rabs (D - B) <= A1 + A2). { replace (D - B) with (D + - B) by ring. eapply Rle_trans; [apply Rabs_triang|]. rewrite Rabs_Ropp. lra. }
  unfold dot_err. pose proof (u_pos prec) as U. pose proof (eta_pos prec emax) as Q. pose proof (rel_pos prec 2) as R2.
  assert (1 <= (1 + u) ^ (n + 2)) by (apply pow_R1_Rle; lra).
  apply Rle_trans with (((1 + u) ^ 2 * (rel u n * A1 + (1 + u) ^ n * (INR n * eta) + (rel u n * A2 + (1 + u) ^ n * (INR n * eta))) + rel u 2 * (A1 + A2)) / INR n + eta).
  { apply Rplus_le_compat_r. apply Rmult_le_compat_r; [left; apply Rinv_0_lt_compat; exact Pn|]. apply Rplus_le_compat_l. apply Rmult_le_compat_l; auto. }
  replace (((1 + u) ^ 2 * (rel u n * A1 + (1 + u) ^ n * (INR n * eta) + (rel u n * A2 + (1 + u) ^ n * (INR n * eta))) + rel u 2 * (A1 + A2)) / INR n)
    with (rel u (n + 2) * ((A1 + A2) / INR n) + 2 * (1 + u) ^ (n + 2) * eta).
  - assert (eta <= (1 + u) ^ (n + 2) * eta) by nra. lra.
  - unfold rel. rewrite pow_add. field. lra.
Qed.
Local Notation tgt t := (fun i => nth i (tgtR prec emax t) 0).
Lemma target_val n t y : target1_wf n t -> single_target (f0 o) t = Ret y -> val y = tgtR prec emax t /\ length y = n.
Proof.
  intros WT Ey. destruct (tgt_val prec emax Hp Hm m n t WT) as (y' & Ey' & Vy). rewrite Ey in Ey'. injection Ey' as <-. split; [exact Vy|]. exact (target_len prec emax Hp Hm m n t y WT Ey).
Qed.
Lemma dense_ge (RD : reduces prec emax Hp Hm m) n p X t d0 d Xw j g : (Z.of_nat n <= 2 ^ prec)%Z -> shaped n p X -> target1_wf n t ->
  df_initialize (quad_dense o) d0 (Dataset X t) = Ret d -> df_gradient_j (quad_dense o) d (Dataset X t) Xw j = Ret g -> finite g ->
  (forall i, (i < n)%nat -> entR prec emax X i j = 0 \/ finite (nth i Xw (f0 o))) /\
  Rabs (B2R g - (Sum n (fun i => entR prec emax X i j * atR Xw i) - Sum n (fun i => entR prec emax X i j * tgt t i)) / INR n) <=
    rel u (n + 2) * (Sum n (fun i => Rabs (entR prec emax X i j) * (Rabs (atR Xw i) + Rabs (tgt t i))) / INR n) + 3 * (1 + u) ^ (n + 2) * eta.
Proof.
  intros Hn SX WT EI EG F. pose proof (top_grad prec emax Hp Hm m RD n p X t d0 d Xw j g Hn SX WT EI EG F) as B.
  assert (FX : length Xw = n /\ Forall finite Xw).
  { cbn [quad_dense df_initialize df_gradient_j] in EI, EG. unfold quad_dense_gradient_j in EG. cbn [dtargets design_matrix] in EG. unfold mcol in EG. destruct (j <? mnc X)%nat; [|discriminate]. cbn [bind] in EG.
    unfold vdot in EG. change (colv (f0 o) X j) with (col prec emax Hp Hm m X j) in EG. destruct (length (col prec emax Hp Hm m X j) =? length Xw)%nat eqn:EL; [|discriminate]. cbn [bind] in EG.
    destruct (vget (q_Xty d) j); [|discriminate]. cbn [bind] in EG. injection EG as <-. apply Nat.eqb_eq in EL. assert (LC := col_len prec emax Hp Hm m n p X j SX). assert (NS : n_samples t = n) by (destruct t; [exact WT|exact (proj1 WT)]). rewrite NS in F.
    cbn [ieee_ops fdiv fsub fcast] in F. destruct (cast_exact prec emax Hp Hm n Hn) as [FN _]. destruct (div_fin prec emax Hp Hm _ _ F FN) as (Fs & _ & _). destruct (sub_fin prec emax Hp Hm _ _ Fs) as (Fd & _ & _).
    destruct (ndot_err prec emax Hp Hm m RD (col prec emax Hp Hm m X j) Xw EL Fd) as (_ & FX & _). split; [congruence|exact FX]. }
  destruct FX as [LX FX]. split. { intros i Hi. right. rewrite Forall_forall in FX. apply FX, nth_In. lia. }
  assert (LC : length (colR prec emax X j) = n) by (destruct SX as (S1 & S2 & S3 & _); unfold colR; rewrite map_length; congruence).
  assert (LV : length (val Xw) = n) by (unfold SpecRound.val; rewrite map_length; exact LX). assert (LT : length (tgtR prec emax t) = n). { destruct (tgt_val prec emax Hp Hm m n t WT) as (y & Ey & Vy). rewrite <- Vy. unfold SpecRound.val. rewrite map_length. exact (target_len prec emax Hp Hm m n t y WT Ey). }
  rewrite !(dotp_Sum n), !(adot_Sum n) in B by assumption. rewrite <- Sum_plus in B.
  assert (EQ : Sum n (fun i => Rabs (nth i (colR prec emax X j) 0) * Rabs (nth i (val Xw) 0) + Rabs (nth i (colR prec emax X j) 0) * Rabs (nth i (tgtR prec emax t) 0)) = Sum n (fun i => Rabs (entR prec emax X i j) * (Rabs (atR Xw i) + Rabs (nth i (tgtR prec emax t) 0)))).
  { apply Sum_ext. intros i Hi. unfold entR, SpecRound.atR. ring. }
  rewrite EQ in B. exact B.
Qed.

Section Sparse.
Context (n p : nat) (cs : nat -> list (nat * bf)) (X : csc bf) (ST : stores prec emax n p cs X).
Local Notation E := (storedR prec emax cs).
Lemma col_tree (z : list bf) : forall es l0 r0 r, tree_sum prec emax Hp Hm l0 r0 -> foldM (fun acc e => v <- vgetz z (Z.of_nat (fst e)) ;; Ret (fadd o acc (fmul o (snd e) v))) es r0 = Ret r ->
  tree_sum prec emax Hp Hm (l0 ++ map2 bmul (map snd es) (map (fun e => nth (fst e) z (f0 o)) es)) r.
Proof.
  induction es as [|e es IH]; intros l0 r0 r T H; cbn [foldM] in H; [injection H as <-; cbn; rewrite app_nil_r; exact T|].
  unfold vgetz at 1 in H. rewrite (proj2 (Z.ltb_ge _ _)) in H by lia. rewrite Nat2Z.id in H. destruct (vget z (fst e)) as [v|] eqn:Ev; [|discriminate]. cbn [bind] in H. destruct (vget_inv _ _ _ Ev) as [_ Hv].
  cbn [map]. rewrite (Hv (f0 o)). change (map2 bmul (snd e :: map snd es) (v :: map (fun e0 => nth (fst e0) z (f0 o)) es)) with ([bmul (snd e) v] ++ map2 bmul (map snd es) (map (fun e0 => nth (fst e0) z (f0 o)) es)). rewrite app_assoc.
  apply (IH _ (badd r0 (bmul (snd e) v)) r); [|exact H]. apply ts_add; [exact T|apply ts_one].
Qed.
Lemma col_sum j (f : nat -> R) : (j < p)%nat -> rsum (map (fun e => B2R (snd e) * f (fst e)) (cs j)) = Sum n (fun i => E i j * f i) /\ (length (cs j) <= n)%nat.
Proof using ST.
  intros Hj. destruct (proj2 ST j Hj) as (_ & ND & LT). assert (LT' : forall i, In i (map fst (cs j)) -> (i < n)%nat) by (intros i Hi; apply in_map_iff in Hi as (e & <- & He); exact (LT e He)).
  split.
  - rewrite <- (sum_support n (fun i => E i j * f i) (map fst (cs j)) ND LT'). 2:{ intros i _ Hi. rewrite (stored_off prec emax cs i j Hi). ring. }
    change Rsum with rsum. rewrite map_map. f_equal. apply map_ext_in. intros e He. rewrite (stored_on prec emax cs j e ND He). reflexivity.
  - rewrite <- (map_length fst), <- (seq_length n 0). apply NoDup_incl_length; [exact ND|]. intros i Hi. apply in_seq. specialize (LT' i Hi). lia.
Qed.
Lemma col_dot_err j (z : list bf) r : (j < p)%nat -> foldM (fun acc e => v <- vgetz z (Z.of_nat (fst e)) ;; Ret (fadd o acc (fmul o (snd e) v))) (cs j) (f0 o) = Ret r -> finite r ->
  (forall i, (i < n)%nat -> E i j = 0 \/ finite (nth i z (f0 o))) /\
  Rabs (B2R r - Sum n (fun i => E i j * atR z i)) <= dot_err prec emax n (Sum n (fun i => Rabs (E i j) * Rabs (atR z i))).
Proof using ST.
  intros Hj H F. pose proof (col_tree z (cs j) [] (f0 o) r (ts_zero prec emax Hp Hm) H) as T. cbn [app] in T. set (a := map snd (cs j)) in *. set (b := map (fun e => nth (fst e) z (f0 o)) (cs j)) in *.
  assert (L : length a = length b) by (unfold a, b; rewrite !map_length; reflexivity). destruct (tree_dot_err prec emax Hp Hm a b r L T F) as (_ & FB & B).
  destruct (proj2 ST j Hj) as (_ & ND & LT). destruct (col_sum j (fun i => atR z i) Hj) as [SD LK].
  assert (DT : dotp (val a) (val b) = rsum (map (fun e => B2R (snd e) * atR z (fst e)) (cs j))).
  { unfold a, b, SpecRound.val. clear. induction (cs j) as [|e es IH]; [reflexivity|]. unfold rsum in *. cbn [map dotp fold_right]. rewrite IH, (atR_nth prec emax Hp Hm m). reflexivity. }
  assert (AD : adot (val a) (val b) = Sum n (fun i => Rabs (E i j) * Rabs (atR z i))).
  { rewrite <- (sum_support n (fun i => Rabs (E i j) * Rabs (atR z i)) (map fst (cs j)) ND). 3:{ intros i _ Hi. rewrite (stored_off prec emax cs i j Hi), Rabs_R0. ring. } 2:{ intros i Hi; apply in_map_iff in Hi as (e & <- & He); exact (LT e He). }
    change Rsum with rsum. rewrite map_map. transitivity (rsum (map (fun e => Rabs (B2R (snd e)) * Rabs (atR z (fst e))) (cs j))).
    - unfold a, b, SpecRound.val. clear. induction (cs j) as [|e es IH]; [reflexivity|]. unfold rsum in *. cbn [map adot fold_right]. rewrite IH, (atR_nth prec emax Hp Hm m), Rabs_mult. reflexivity.
    - f_equal. apply map_ext_in. intros e He. rewrite (stored_on prec emax cs j e ND He). reflexivity. }
  rewrite DT, SD, AD in B. split.
  - intros i Hi. destruct (in_dec Nat.eq_dec i (map fst (cs j))) as [Hin|Hout]; [right|left; exact (stored_off prec emax cs i j Hout)].
    apply in_map_iff in Hin as (e & <- & He). rewrite Forall_forall in FB. apply FB. unfold b. apply in_map_iff. exists e. auto.
  - eapply Rle_trans; [exact B|]. unfold dot_err. assert (LA : length a = length (cs j)) by (unfold a; apply map_length). rewrite LA. pose proof (u_pos prec) as U. pose proof (eta_pos prec emax) as Q.
    assert (P2 : (1 + u) ^ length (cs j) <= (1 + u) ^ n) by (apply Rle_pow; [lra|exact LK]). assert (P3 : INR (length (cs j)) <= INR n) by (apply le_INR; exact LK).
    apply Rplus_le_compat; [apply Rmult_le_compat_r; [rewrite <- AD; apply adot_pos|unfold rel; lra]|]. apply Rmult_le_compat; [apply pow_le; lra|apply Rmult_le_pos; [apply pos_INR|lra]|exact P2|apply Rmult_le_compat_r; lra].
Qed.
Lemma pair_snd (y : list bf) : forall es s1 s2 r1 r2,
  foldM (fun acc e => yi <- vgetz y (Z.of_nat (fst e)) ;; Ret (fadd o (fst acc) (fmul o (snd e) (snd e)), fadd o (snd acc) (fmul o (snd e) yi))) es (s1, s2) = Ret (r1, r2) ->
  foldM (fun acc (e : nat * bf) => v <- vgetz y (Z.of_nat (fst e)) ;; Ret (fadd o acc (fmul o (snd e) v))) es s2 = Ret r2.
Proof.
  induction es as [|e es IH]; intros s1 s2 r1 r2 H; cbn [foldM] in *; [injection H as _ <-; reflexivity|].
  destruct (vgetz y (Z.of_nat (fst e))) as [v|]; [|discriminate]. cbn [bind fst snd] in *. exact (IH _ _ _ _ H).
Qed.
Lemma sparse_ge t d0 d Xw j g : (Z.of_nat n <= 2 ^ prec)%Z -> target1_wf n t ->
  df_initialize (quad_sparse o) d0 (Dataset X t) = Ret d -> df_gradient_j (quad_sparse o) d (Dataset X t) Xw j = Ret g -> finite g ->
  (forall i, (i < n)%nat -> E i j = 0 \/ finite (nth i Xw (f0 o))) /\
  Rabs (B2R g - (Sum n (fun i => E i j * atR Xw i) - Sum n (fun i => E i j * tgt t i)) / INR n) <=
    rel u (n + 2) * (Sum n (fun i => Rabs (E i j) * (Rabs (atR Xw i) + Rabs (tgt t i))) / INR n) + 3 * (1 + u) ^ (n + 2) * eta.
Proof using ST.
  intros Hn WT EI EG F. assert (NS : n_samples t = n) by (destruct t; [exact WT|exact (proj1 WT)]).
  cbn [quad_sparse df_initialize df_gradient_j] in EI, EG. unfold quad_sparse_gradient_j in EG. cbn [dtargets design_matrix] in EG. destruct (csc_range X j) as [r|] eqn:Er; [|discriminate]. cbn [bind] in EG.
  pose proof (range_lt prec emax n p cs X ST j r Er) as Hj. destruct (stored_range prec emax n p cs X ST j Hj) as (zs & Ez & FZ). rewrite Er in Ez. injection Ez as <-.
  rewrite (foldM_F2 _ _ (fun acc e => v <- vgetz Xw (Z.of_nat (fst e)) ;; Ret (fadd o acc (fmul o (snd e) v))) _ _ FZ) in EG by (intros s z e [Q1 Q2] _; rewrite Q1, Q2; reflexivity).
  destruct (foldM _ (cs j) (f0 o)) as [dt|] eqn:Ed; [|discriminate]. cbn [bind] in EG. destruct (vget (q_Xty d) j) as [b|] eqn:Eb; [|discriminate]. cbn [bind] in EG. injection EG as <-.
  unfold quad_sparse_initialize in EI. cbn [dtargets design_matrix] in EI. unfold csc_n_features in EI. rewrite (proj1 ST) in EI. cbn [bind] in EI. destruct (single_target (f0 o) t) as [y|] eqn:Ey; [|discriminate]. cbn [bind] in EI.
  destruct (target_val n t y WT Ey) as [Vy Ly]. destruct (mapM _ (seq 0 p)) as [l|] eqn:El; [|discriminate]. cbn [bind] in EI. injection EI as <-. cbn [q_Xty] in Eb.
  assert (EB : foldM (fun acc e => v <- vgetz y (Z.of_nat (fst e)) ;; Ret (fadd o acc (fmul o (snd e) v))) (cs j) (f0 o) = Ret b).
  { destruct (vget_inv _ _ _ Eb) as [Lj Hb]. rewrite map_length in Lj. specialize (Hb (snd (f0 o, f0 o))). rewrite map_nth in Hb. apply mapM_inv in El.
    assert (Q : forall k, (k < p)%nat -> forall s0 ls, Forall2 (fun (a : nat) (b : bf * bf) => (r <- csc_range X a ;; '(nrm2, xty) <- foldM (fun acc idx => x <- vgetz (cdata X) idx ;; i <- vgetz (cindices X) idx ;; yi <- vgetz y i ;; Ret (fadd o (fst acc) (fmul o x x), fadd o (snd acc) (fmul o x yi))) r (f0 o, f0 o) ;; Ret (fdiv o nrm2 (fcast o (n_samples t)), xty)) = Ret b) (seq s0 p) ls -> exists r, csc_range X (s0 + k) = Ret r /\ exists nr, foldM (fun acc idx => x <- vgetz (cdata X) idx ;; i <- vgetz (cindices X) idx ;; yi <- vgetz y i ;; Ret (fadd o (fst acc) (fmul o x x), fadd o (snd acc) (fmul o x yi))) r (f0 o, f0 o) = Ret (nr, snd (nth k ls (f0 o, f0 o)))).
    { clear. induction p as [|p' IH]; intros k Hk s0 ls HF; [lia|]. cbn [seq] in HF. inversion HF as [|? q ? ls' H1 H2]; subst. destruct k as [|k].
      - rewrite Nat.add_0_r. cbn [nth]. destruct (csc_range X s0) as [r|]; [|discriminate]. exists r. split; [reflexivity|]. cbn [bind] in H1. destruct (foldM _ r _) as [[nr xt]|]; [|discriminate]. cbn [bind] in H1. injection H1 as <-. exists nr. reflexivity.
      - cbn [nth]. rewrite Nat.add_succ_r. apply (IH k ltac:(lia) (S s0) ls' H2). }
    destruct (Q j Hj 0%nat l El) as (r' & Er' & nr & Ef). cbn [Nat.add] in Er'. rewrite Er in Er'. injection Er' as <-. rewrite Hb in Ef. cbn [snd] in Ef.
    rewrite (foldM_F2 _ _ (fun acc e => yi <- vgetz y (Z.of_nat (fst e)) ;; Ret (fadd o (fst acc) (fmul o (snd e) (snd e)), fadd o (snd acc) (fmul o (snd e) yi))) _ _ FZ) in Ef by (intros s z e [Q1 Q2] _; rewrite Q1, Q2; reflexivity).
    exact (pair_snd y (cs j) _ _ _ _ Ef). }
  rewrite NS in F |- *. cbn [ieee_ops fdiv fsub fcast] in F |- *. destruct (cast_exact prec emax Hp Hm n Hn) as [FN _]. destruct (div_fin prec emax Hp Hm _ _ F FN) as (Fs & _ & _). destruct (sub_fin prec emax Hp Hm _ _ Fs) as (Fd & Fb & _).
  destruct (col_dot_err j Xw dt Hj Ed Fd) as [HF D1]. destruct (col_dot_err j y b Hj EB Fb) as [_ D2]. split; [exact HF|].
  assert (YV : forall i, atR y i = tgt t i) by (intros i; unfold SpecRound.atR; rewrite Vy; reflexivity).
  assert (AB : forall f, Rabs (Sum n (fun i => E i j * f i)) <= Sum n (fun i => Rabs (E i j) * Rabs (f i))). { intros f. eapply Rle_trans; [apply Sum_Rabs|]. right. apply Sum_ext. intros i _. apply Rabs_mult. }
  pose proof (core_err n dt b _ _ _ _ Hn F D1 D2 (AB (atR Xw)) (AB (atR y))) as B. rewrite <- Sum_plus in B.
  rewrite (Sum_ext n (fun i => E i j * tgt t i) (fun i => E i j * atR y i)) by (intros i _; rewrite YV; reflexivity).
  rewrite (Sum_ext n (fun i => Rabs (E i j) * (Rabs (atR Xw i) + Rabs (tgt t i))) (fun i => Rabs (E i j) * Rabs (atR Xw i) + Rabs (E i j) * Rabs (atR y i))) by (intros i _; rewrite YV; ring). exact B.
Qed.
End Sparse.
End I.
