(** How fits depend on single samples. *)
From Coq Require Import List ZArith Bool Arith Reals Lra Lia.
From Verif Require Import Ops Arr MUtils MDatasets MHyper MEstimators XR SpecPen VecR PBase RSum SpecLin SpecData PDatafit PCalc PDataProps SpecSolve PLaws PSubdiff PDescent PConv PTheory SpecOpt PFitOpt PCert SpecBudget PRateFit PMore SpecOracle POracle PSens SpecSample.
Import ListNotations.
Open Scope R_scope.

Lemma slope_logistic a z : Rabs (slope Logistic a z) <= Rabs a.
Proof.
  cbn [slope]. pose proof (exp_pos (a * z)). unfold Rdiv. rewrite Rabs_mult, Rabs_Ropp, Rabs_inv, (Rabs_pos_eq (1 + exp (a * z))) by lra.
  rewrite <- (Rmult_1_r (Rabs a)) at 2. apply Rmult_le_compat_l; [apply Rabs_pos|]. rewrite <- Rinv_1. apply Rinv_le_contravar; lra.
Qed.
Lemma dloss1_slope l n p X y w j : (1 <= n)%nat -> dloss1 n p l X y w j = Sum n (fun i => X i j * slope l (y i) (lin p X w i)) / INR n.
Proof.
  intros Hn. pose proof (INR_npos n Hn). destruct l; cbn [dloss1 slope].
  - unfold gq. rewrite <- Sum_minus. f_equal. apply Sum_ext. intros; ring.
  - unfold gl. rewrite <- Sum_opp. f_equal. apply Sum_ext. intros i _. unfold sig. rewrite Ropp_mult_distr_l_reverse, Ropp_involutive.
    pose proof (exp_pos (y i * lin p X w i)). field. lra.
Qed.
Section Two.
Variables (l : single_loss) (n p : nat) (Hn : (1 <= n)%nat) (C : nat -> bool) (X X' : rmat) (y y' : nat -> R) (k : single_pen) (e e' : R) (w v : nat -> R).
Hypotheses (Hr : pen1_range k) (Hc : convex1 k) (HC : same_but n p C X y X' y')
  (Hst : stationary e (loss1 l n y) p X (pen1 k) w) (Hst' : stationary e' (loss1 l n y') p X' (pen1 k) v).
Let d j := w j - v j.
Let s i := slope l (y i) (lin p X v i).
Let s' i := slope l (y' i) (lin p X' v i).
Lemma two_grads : Sum p (fun j => (dloss1 n p l X y w j - dloss1 n p l X' y' v j) * d j) + ridge k * Sum p (fun j => d j ^ 2) <= (e + e') * Sum p (fun j => Rabs (d j)).
Proof.
  unfold d. rewrite <- !Sum_scal, <- !Sum_plus. apply Sum_le. intros j Hj.
  destruct (Hst j Hj) as (q & (g & Dg & (_ & u & Hu & Eq)) & Hq). destruct (Hst' j Hj) as (q' & (g' & Dg' & (_ & u' & Hu' & Eq')) & Hq').
  assert (g = dloss1 n p l X y w j) as -> by (eapply uniqueness_limite; [exact Dg|apply loss1_deriv; auto]).
  assert (g' = dloss1 n p l X' y' v j) as -> by (eapply uniqueness_limite; [exact Dg'|apply loss1_deriv; auto]).
  pose proof (pen_strong k _ _ Hr Hc Hu (v j)) as Q. pose proof (pen_strong k _ _ Hr Hc Hu' (w j)) as Q'.
  set (G := dloss1 n p l X y w j) in *. set (G' := dloss1 n p l X' y' v j) in *.
  assert (B : - (- G - u) * (w j - v j) <= e * Rabs (w j - v j)).
  { apply Rle_trans with (1 := Rle_abs _). rewrite Rabs_mult, Rabs_Ropp, Eq. apply Rmult_le_compat_r; [apply Rabs_pos|auto]. }
  assert (B' : (- G' - u') * (w j - v j) <= e' * Rabs (w j - v j)).
  { apply Rle_trans with (1 := Rle_abs _). rewrite Rabs_mult, Eq'. apply Rmult_le_compat_r; [apply Rabs_pos|auto]. }
  nra.
Qed.
Lemma grad_change : Sum p (fun j => (dloss1 n p l X y v j - dloss1 n p l X' y' v j) * d j) = sum_changed n C (fun i => s i * lin p X d i - s' i * lin p X' d i) / INR n.
Proof.
  pose proof (INR_npos n Hn) as HN. unfold sum_changed. rewrite <- Sum_div.
  rewrite (Sum_ext n _ (fun i => Sum p (fun j => (X i j * s i - X' i j * s' i) / INR n * d j))).
  - rewrite Sum_swap. apply Sum_ext. intros j Hj. rewrite !dloss1_slope by auto. fold s s'. rewrite Sum_scal_r, Sum_div, Sum_minus. unfold s, s'. f_equal. field. lra.
  - intros i Hi. destruct (C i) eqn:Ei.
    + unfold lin. rewrite <- !Sum_scal, <- Sum_minus, <- Sum_div. apply Sum_ext. intros. field. lra.
    + destruct (HC i Hi Ei) as [Ey EX]. replace (0 / INR n) with 0 by (field; lra). symmetry. apply Sum_zero. intros j Hj.
      assert (El : lin p X v i = lin p X' v i) by (unfold lin; apply Sum_ext; intros; rewrite EX; auto).
      unfold s, s'. rewrite Ey, El, EX by auto. field. lra.
Qed.
Lemma changed_le : - (sum_changed n C (fun i => s i * lin p X d i - s' i * lin p X' d i)) <= sum_changed n C (fun i => Rabs (s i) * Rabs (lin p X d i) + Rabs (s' i) * Rabs (lin p X' d i)).
Proof.
  unfold sum_changed. rewrite <- Sum_opp. apply Sum_le. intros i _. destruct (C i); [|lra]. rewrite <- !Rabs_mult.
  pose proof (Rle_abs (- (s i * lin p X d i))) as A. rewrite Rabs_Ropp in A. pose proof (Rle_abs (s' i * lin p X' d i)). lra.
Qed.
Lemma lin_len Z i : Rabs (lin p Z d i) <= length_of p Z i * sqrt (Sum p (fun j => d j ^ 2)).
Proof.
  unfold length_of. assert (0 <= Sum p (fun j => Z i j ^ 2)) by (apply Sum_nonneg; intros; apply pow2_ge_0). assert (0 <= Sum p (fun j => d j ^ 2)) by (apply Sum_nonneg; intros; apply pow2_ge_0).
  rewrite <- sqrt_mult by auto. rewrite <- sqrt_Rsqr_abs, Rsqr_pow2. apply sqrt_le_1_alt. apply Sum_CS.
Qed.
Lemma mono_v : 0 <= Sum p (fun j => (dloss1 n p l X y w j - dloss1 n p l X y v j) * d j).
Proof.
  unfold d. pose proof (loss1_convex l n p X y w v Hn) as Q. pose proof (loss1_convex l n p X y v w Hn) as Q'.
  replace (Sum p (fun j => (dloss1 n p l X y w j - dloss1 n p l X y v j) * (w j - v j))) with (- (Sum p (fun j => dloss1 n p l X y w j * (v j - w j)) + Sum p (fun j => dloss1 n p l X y v j * (w j - v j)))); [lra|].
  rewrite <- Sum_plus, <- Sum_opp. apply Sum_ext. intros. ring.
Qed.
Lemma sample_basic : Sum p (fun j => (dloss1 n p l X y w j - dloss1 n p l X y v j) * d j) + ridge k * Sum p (fun j => d j ^ 2) <=
  (e + e') * Sum p (fun j => Rabs (d j)) + sum_changed n C (fun i => Rabs (s i) * Rabs (lin p X d i) + Rabs (s' i) * Rabs (lin p X' d i)) / INR n.
Proof.
  pose proof two_grads as Q. pose proof grad_change as E. pose proof changed_le as H. pose proof (INR_npos n Hn) as HN.
  assert (K : - (sum_changed n C (fun i => s i * lin p X d i - s' i * lin p X' d i) / INR n) <= sum_changed n C (fun i => Rabs (s i) * Rabs (lin p X d i) + Rabs (s' i) * Rabs (lin p X' d i)) / INR n).
  { unfold Rdiv. rewrite Ropp_mult_distr_l. apply Rmult_le_compat_r; auto. left. apply Rinv_0_lt_compat; auto. }
  rewrite (Sum_ext p (fun j => (dloss1 n p l X y w j - dloss1 n p l X' y' v j) * d j) (fun j => (dloss1 n p l X y w j - dloss1 n p l X y v j) * d j + (dloss1 n p l X y v j - dloss1 n p l X' y' v j) * d j)) in Q by (intros; ring).
  rewrite Sum_plus, E in Q. lra.
Qed.
Lemma sample_coefficients : 0 <= e + e' ->
  ridge k * sqrt (Sum p (fun j => d j ^ 2)) <= sqrt (INR p) * (e + e') + sum_changed n C (fun i => length_of p X i * Rabs (s i) + length_of p X' i * Rabs (s' i)) / INR n.
Proof.
  intros He. pose proof sample_basic as Q. pose proof mono_v as Qm. pose proof (cs_count p d) as C1. pose proof (INR_npos n Hn) as HN.
  set (D2 := Sum p (fun j => d j ^ 2)) in *. set (D1 := Sum p (fun j => Rabs (d j))) in *.
  assert (HD : 0 <= D2) by (apply Sum_nonneg; intros; apply pow2_ge_0).
  assert (H1 : 0 <= D1) by (apply Sum_nonneg; intros; apply Rabs_pos).
  assert (K1 : D1 <= sqrt (INR p) * sqrt D2) by (rewrite <- sqrt_mult by (auto; apply pos_INR); rewrite <- (sqrt_pow2 D1) by auto; apply sqrt_le_1_alt; auto).
  pose proof (Rmult_le_compat_l _ _ _ He K1) as K2.
  set (B := sum_changed n C (fun i => length_of p X i * Rabs (s i) + length_of p X' i * Rabs (s' i)) / INR n).
  assert (HI : 0 < / INR n) by (apply Rinv_0_lt_compat; auto).
  assert (K3 : sum_changed n C (fun i => Rabs (s i) * Rabs (lin p X d i) + Rabs (s' i) * Rabs (lin p X' d i)) / INR n <= B * sqrt D2).
  { unfold B, Rdiv. rewrite (Rmult_assoc _ (/ INR n)), (Rmult_comm (/ INR n)), <- Rmult_assoc. apply Rmult_le_compat_r; [lra|]. unfold sum_changed. rewrite <- Sum_scal_r. apply Sum_le. intros i _.
    destruct (C i); [|lra]. pose proof (lin_len X i) as L1. pose proof (lin_len X' i) as L2. fold D2 in L1, L2.
    pose proof (Rmult_le_compat_l _ _ _ (Rabs_pos (s i)) L1). pose proof (Rmult_le_compat_l _ _ _ (Rabs_pos (s' i)) L2). lra. }
  assert (HB : 0 <= B).
  { unfold B, Rdiv. apply Rmult_le_pos; [|lra]. apply Sum_nonneg. intros i _. destruct (C i); [|lra]. apply Rplus_le_le_0_compat; apply Rmult_le_pos; try apply Rabs_pos; apply sqrt_pos. }
  set (sd := sqrt D2) in *. assert (Es : D2 = sd * sd) by (unfold sd; rewrite sqrt_sqrt; auto). assert (Hsd : 0 <= sd) by apply sqrt_pos.
  destruct (Req_dec sd 0) as [E0|E0].
  - rewrite E0, Rmult_0_r. pose proof (Rmult_le_pos _ _ (sqrt_pos (INR p)) He). lra.
  - apply Rmult_le_reg_r with sd; [lra|]. rewrite Es in Q. lra.
Qed.
Lemma sample_predictions : l = Squared -> msp n p X d + ridge k * Sum p (fun j => d j ^ 2) <=
  (e + e') * Sum p (fun j => Rabs (d j)) + sum_changed n C (fun i => Rabs (s i) * Rabs (lin p X d i) + Rabs (s' i) * Rabs (lin p X' d i)) / INR n.
Proof.
  intros El. pose proof sample_basic as Q. pose proof (INR_npos n Hn) as HN.
  replace (msp n p X d) with (Sum p (fun j => (dloss1 n p l X y w j - dloss1 n p l X y v j) * d j)); auto.
  unfold msp. rewrite <- Sum_div. rewrite (Sum_ext n _ (fun i => Sum p (fun j => lin p X d i / INR n * (X i j * d j)))) by (intros; rewrite Sum_scal; unfold lin; field; lra).
  rewrite Sum_swap. apply Sum_ext. intros j Hj. rewrite El. cbn [dloss1]. unfold gq. rewrite <- !Sum_minus, <- !Sum_div, <- Sum_minus, <- Sum_scal_r. apply Sum_ext. intros i Hi. unfold d. rewrite lin_minus. field. lra.
Qed.
End Two.
(** *** fits *)
Section Fits.
Context (srt srt' : list xr -> list nat) (VS : valid_sort xops srt) (VS' : valid_sort xops srt') (n p : nat) (Hn : (1 <= n)%nat).
Variables (C : nat -> bool) (X X' : rmat) (y y' : nat -> R) (l : single_loss) (k : single_pen) (c : R) (s s' : solver xr) (fit fit' : nat -> res (result (list xr) (estimator_error xr))) (t t' : R).
Hypotheses (HF : single_fit srt n p X y l k s fit) (HF' : single_fit srt' n p X' y' l k s' fit') (Hy : targets_ok l n y) (Hy' : targets_ok l n y') (HC : same_but n p C X y X' y')
  (Hw : l1_weight k c) (HA : accepted fit) (HA' : accepted fit') (Et : s_tolerance s = Fin t) (Et' : s_tolerance s' = Fin t') (Ht : 0 < t) (Ht' : 0 < t')
  (Hq : forall q, In q [s; s'] -> (1 <= s_ws_start_size q)%nat /\ (1 <= s_max_epochs q)%nat /\ calm_schedule (s_use_acceleration q) (s_K q) (s_max_epochs q) /\
     accel_safe (s_use_acceleration q) (s_K q) (Nat.min (s_ws_start_size q) p) (s_max_epochs q)).
Lemma both_samples : exists N w v, (forall m, (N <= m)%nat -> fit m = Ret (Ok (xv p w)) /\ fit' m = Ret (Ok (xv p v))) /\
  stationary t (loss1 l n y) p X (pen1 k) w /\ stationary t' (loss1 l n y') p X' (pen1 k) v /\ pen1_range k.
Proof.
  destruct (Hq s (or_introl eq_refl)) as (A1 & A2 & A3 & A4). destruct (Hq s' (or_intror (or_introl eq_refl))) as (B1 & B2 & B3 & B4).
  assert (C1 : convex1 k /\ forall cmp Z, steps_ok cmp k l n p Z) by (destruct k; cbn in *; try contradiction; split; auto). destruct C1 as [C1 C2].
  destruct (c27_single srt VS n p Hn X y l k s fit HF Hy (C2 Rlt X) t HA Et Ht A1 A2 A3 A4) as (N & w & Hst & Hall).
  destruct (c27_single srt' VS' n p Hn X' y' l k s' fit' HF' Hy' (C2 Rlt X') t' HA' Et' Ht' B1 B2 B3 B4) as (N' & v & Hst' & Hall').
  exists (Nat.max N N'), w, v. split; [intros m Hm; split; [apply Hall|apply Hall']; lia|]. split; auto. split; auto.
  destruct (inv1 srt VS n p Hn X y l k s fit HF Hy (C2 Rle X) N _ (Hall N (le_n N))) as (H & _); auto.
Qed.
Lemma c101_all : exists N w v, (forall m, (N <= m)%nat -> fit m = Ret (Ok (xv p w)) /\ fit' m = Ret (Ok (xv p v))) /\
  let d j := w j - v j in let r i := Rabs (slope l (y i) (lin p X v i)) in let r' i := Rabs (slope l (y' i) (lin p X' v i)) in
  ridge k * sqrt (Sum p (fun j => d j ^ 2)) <= sqrt (INR p) * (t + t') + sum_changed n C (fun i => length_of p X i * r i + length_of p X' i * r' i) / INR n /\
  (l = Logistic -> ridge k * sqrt (Sum p (fun j => d j ^ 2)) <= sqrt (INR p) * (t + t') + sum_changed n C (fun i => length_of p X i + length_of p X' i) / INR n) /\
  (l = Squared -> msp n p X d + ridge k * Sum p (fun j => d j ^ 2) <= (t + t') * Sum p (fun j => Rabs (d j)) + sum_changed n C (fun i => r i * Rabs (lin p X d i) + r' i * Rabs (lin p X' d i)) / INR n).
Proof.
  destruct both_samples as (N & w & v & Hall & Hst & Hst' & Hr). exists N, w, v. split; auto. intros d r r'.
  assert (C1 : convex1 k) by (destruct k; cbn in *; tauto).
  pose proof (sample_coefficients l n p Hn C X X' y y' k t t' w v Hr C1 HC Hst Hst' ltac:(lra)) as Q. split; [exact Q|]. split.
  - intros El. apply Rle_trans with (1 := Q). apply Rplus_le_compat_l. pose proof (INR_npos n Hn) as HN. unfold Rdiv. apply Rmult_le_compat_r; [left; apply Rinv_0_lt_compat; auto|].
    unfold sum_changed. apply Sum_le. intros i Hi. destruct (C i); [|lra]. subst l. cbn [targets_ok] in Hy, Hy'.
    assert (R1 : Rabs (slope Logistic (y i) (lin p X v i)) <= 1) by (apply Rle_trans with (1 := slope_logistic _ _); auto).
    assert (R2 : Rabs (slope Logistic (y' i) (lin p X' v i)) <= 1) by (apply Rle_trans with (1 := slope_logistic _ _); auto).
    pose proof (Rmult_le_compat_l _ _ _ (sqrt_pos (Sum p (fun j => X i j ^ 2))) R1) as M1. pose proof (Rmult_le_compat_l _ _ _ (sqrt_pos (Sum p (fun j => X' i j ^ 2))) R2) as M2.
    fold (length_of p X i) in M1. fold (length_of p X' i) in M2. lra.
  - intros El. exact (sample_predictions l n p Hn C X X' y y' k t t' w v Hr C1 HC Hst Hst' El).
Qed.
End Fits.
