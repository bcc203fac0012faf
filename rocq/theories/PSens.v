(** How fits depend on the regularisation strength and on the mixing parameter. *)
From Coq Require Import List ZArith Bool Arith Reals Lra Lia.
From Verif Require Import Ops Arr MUtils MDatasets MHyper MEstimators XR SpecPen VecR PBase RSum SpecLin SpecData PDatafit PCalc PDataProps SpecSolve PLaws PSubdiff PDescent PConv PTheory SpecOpt PFitOpt PCert SpecBudget PRateFit PMore SpecOracle POracle.
Import ListNotations.
Open Scope R_scope.

Lemma pen_strong k w s : pen1_range k -> convex1 k -> subgrad (pen1 k) w s -> forall x, pen1 k w + s * (x - w) + ridge k / 2 * (x - w) ^ 2 <= pen1 k x.
Proof.
  intros Hr Hc Hs x. destruct k as [a|a r|a g]; [| |destruct Hc].
  - cbn [ridge]. pose proof (subgrad_global _ _ _ (pen1_convex (LassoPen a) Hr I) Hs x). lra.
  - cbn [ridge pen1_range] in *. apply subgrad_strong; tauto.
Qed.
Lemma pen_form k c x : convex1 k -> l1_weight k c -> pen1 k x = c * Rabs x + ridge k / 2 * x ^ 2.
Proof. intros Hc Hw. destruct k as [a|a r|a g]; [| |destruct Hc]; cbn in *; subst c; [unfold abs_pen|unfold enet_pen]; field. Qed.
Section Two.
Variables (l : single_loss) (n p : nat) (Hn : (1 <= n)%nat) (X : rmat) (y : nat -> R) (k k' : single_pen) (c c' e e' : R) (w v : nat -> R).
Hypotheses (Hr : pen1_range k) (Hr' : pen1_range k') (Hc : convex1 k) (Hc' : convex1 k') (Hw : l1_weight k c) (Hw' : l1_weight k' c')
  (Hst : stationary e (loss1 l n y) p X (pen1 k) w) (Hst' : stationary e' (loss1 l n y) p X (pen1 k') v).
Lemma two_models : Sum p (fun j => (dloss1 n p l X y w j - dloss1 n p l X y v j) * (w j - v j)) + ridge k * Sum p (fun j => (w j - v j) ^ 2) <=
  (e + e') * Sum p (fun j => Rabs (w j - v j)) + (c - c') * Sum p (fun j => Rabs (v j) - Rabs (w j)) + (ridge k' - ridge k) * Sum p (fun j => v j * (w j - v j)).
Proof.
  rewrite <- !Sum_scal, <- !Sum_plus. apply Sum_le. intros j Hj.
  destruct (Hst j Hj) as (d & (g & Dg & (_ & s & Hs & Ed)) & Hd). destruct (Hst' j Hj) as (d' & (g' & Dg' & (_ & s' & Hs' & Ed')) & Hd').
  assert (g = dloss1 n p l X y w j) as -> by (eapply uniqueness_limite; [exact Dg|apply loss1_deriv; auto]).
  assert (g' = dloss1 n p l X y v j) as -> by (eapply uniqueness_limite; [exact Dg'|apply loss1_deriv; auto]).
  pose proof (pen_strong k _ _ Hr Hc Hs (v j)) as Q. pose proof (pen_strong k' _ _ Hr' Hc' Hs' (w j)) as Q'.
  rewrite !(pen_form k c) in Q by auto. rewrite !(pen_form k' c') in Q' by auto.
  set (G := dloss1 n p l X y w j) in *. set (G' := dloss1 n p l X y v j) in *.
  assert (B : - (- G - s) * (w j - v j) <= e * Rabs (w j - v j)).
  { apply Rle_trans with (1 := Rle_abs _). rewrite Rabs_mult, Rabs_Ropp, Ed. apply Rmult_le_compat_r; [apply Rabs_pos|auto]. }
  assert (B' : (- G' - s') * (w j - v j) <= e' * Rabs (w j - v j)).
  { apply Rle_trans with (1 := Rle_abs _). rewrite Rabs_mult, Ed'. apply Rmult_le_compat_r; [apply Rabs_pos|auto]. }
  nra.
Qed.
Lemma grad_monotone : 0 <= Sum p (fun j => (dloss1 n p l X y w j - dloss1 n p l X y v j) * (w j - v j)).
Proof.
  pose proof (loss1_convex l n p X y w v Hn) as Q. pose proof (loss1_convex l n p X y v w Hn) as Q'.
  replace (Sum p (fun j => (dloss1 n p l X y w j - dloss1 n p l X y v j) * (w j - v j))) with (- (Sum p (fun j => dloss1 n p l X y w j * (v j - w j)) + Sum p (fun j => dloss1 n p l X y v j * (w j - v j)))); [lra|].
  rewrite <- Sum_plus, <- Sum_opp. apply Sum_ext. intros. ring.
Qed.
Lemma abs_sums : Rabs (Sum p (fun j => Rabs (v j) - Rabs (w j))) <= Sum p (fun j => Rabs (w j - v j)).
Proof.
  assert (H : forall q, Rabs (Sum q (fun j => Rabs (v j) - Rabs (w j))) <= Sum q (fun j => Rabs (w j - v j))); [|apply H].
  induction q as [|q IH]; [rewrite !Sum_0, Rabs_R0; lra|]. rewrite !Sum_S. apply Rle_trans with (1 := Rabs_triang _ _). apply Rplus_le_compat; auto.
  apply Rle_trans with (1 := Rabs_triang_inv2 _ _). rewrite Rabs_minus_sym. lra.
Qed.
Lemma c100_coefficients : 0 < ridge k -> 0 <= e + e' ->
  ridge k * sqrt (Sum p (fun j => (w j - v j) ^ 2)) <= sqrt (INR p) * (e + e' + Rabs (c - c')) + Rabs (ridge k - ridge k') * sqrt (Sum p (fun j => v j ^ 2)).
Proof.
  intros Hg He. pose proof two_models as Q. pose proof grad_monotone as Qm. pose proof abs_sums as Qa. pose proof (cs_count p (fun j => w j - v j)) as C1. cbv beta in C1.
  pose proof (Sum_CS p v (fun j => w j - v j)) as C2.
  set (D2 := Sum p (fun j => (w j - v j) ^ 2)) in *. set (V2 := Sum p (fun j => v j ^ 2)) in *. set (D1 := Sum p (fun j => Rabs (w j - v j))) in *. set (vd := Sum p (fun j => v j * (w j - v j))) in *.
  set (ab := Sum p (fun j => Rabs (v j) - Rabs (w j))) in *.
  assert (HD : 0 <= D2) by (apply Sum_nonneg; intros; apply pow2_ge_0). assert (HV : 0 <= V2) by (apply Sum_nonneg; intros; apply pow2_ge_0).
  assert (H1 : 0 <= D1) by (apply Sum_nonneg; intros; apply Rabs_pos).
  assert (K1 : D1 <= sqrt (INR p) * sqrt D2) by (rewrite <- sqrt_mult by (auto; apply pos_INR); rewrite <- (sqrt_pow2 D1) by auto; apply sqrt_le_1_alt; auto).
  assert (K2 : Rabs vd <= sqrt V2 * sqrt D2) by (rewrite <- sqrt_mult by auto; rewrite <- sqrt_Rsqr_abs, Rsqr_pow2; apply sqrt_le_1_alt; auto).
  assert (K3 : (c - c') * ab <= Rabs (c - c') * D1) by (apply Rle_trans with (1 := Rle_abs _); rewrite Rabs_mult; apply Rmult_le_compat_l; [apply Rabs_pos|auto]).
  assert (K4 : (ridge k' - ridge k) * vd <= Rabs (ridge k - ridge k') * (sqrt V2 * sqrt D2)) by (apply Rle_trans with (1 := Rle_abs _); rewrite Rabs_mult, Rabs_minus_sym; apply Rmult_le_compat_l; [apply Rabs_pos|auto]).
  assert (K5 : (e + e' + Rabs (c - c')) * D1 <= (e + e' + Rabs (c - c')) * (sqrt (INR p) * sqrt D2)) by (apply Rmult_le_compat_l; auto; pose proof (Rabs_pos (c - c')); lra).
  set (sd := sqrt D2) in *. assert (Es : D2 = sd * sd) by (unfold sd; rewrite sqrt_sqrt; auto). assert (Hsd : 0 <= sd) by apply sqrt_pos.
  destruct (Req_dec sd 0) as [E0|E0].
  - rewrite E0, Rmult_0_r. pose proof (sqrt_pos (INR p)). pose proof (sqrt_pos V2). pose proof (Rabs_pos (c - c')). pose proof (Rabs_pos (ridge k - ridge k')).
    apply Rplus_le_le_0_compat; apply Rmult_le_pos; lra.
  - apply Rmult_le_reg_r with sd; [lra|]. rewrite Es in Q. lra.
Qed.
End Two.
(** training predictions of the Lasso and elastic net *)
Lemma c100_predictions n p X y k k' c c' e e' w v : (1 <= n)%nat -> pen1_range k -> pen1_range k' -> convex1 k -> convex1 k' -> l1_weight k c -> l1_weight k' c' ->
  stationary e (loss1 Squared n y) p X (pen1 k) w -> stationary e' (loss1 Squared n y) p X (pen1 k') v ->
  msp n p X (fun j => w j - v j) <= (e + e') * Sum p (fun j => Rabs (w j - v j)) + Rabs (c - c') * Sum p (fun j => Rabs (w j - v j)) + Rabs (ridge k - ridge k') * Sum p (fun j => Rabs (v j) * Rabs (w j - v j)).
Proof.
  intros Hn Hr Hr' Hc Hc' Hw Hw' Hs Hs'. pose proof (two_models Squared n p Hn X y k k' c c' e e' w v Hr Hr' Hc Hc' Hw Hw' Hs Hs') as Q. pose proof (INR_npos n Hn) as HN.
  assert (E1 : Sum p (fun j => (dloss1 n p Squared X y w j - dloss1 n p Squared X y v j) * (w j - v j)) = msp n p X (fun j => w j - v j)).
  { unfold msp. rewrite <- Sum_div. rewrite (Sum_ext n _ (fun i => Sum p (fun j => lin p X (fun j => w j - v j) i / INR n * (X i j * (w j - v j))))) by (intros; rewrite Sum_scal; unfold lin; field; lra).
    rewrite Sum_swap. apply Sum_ext. intros j Hj. cbn [dloss1]. unfold gq. rewrite <- !Sum_minus, <- !Sum_div, <- Sum_minus, <- Sum_scal_r. apply Sum_ext. intros i Hi. rewrite lin_minus. field. lra. }
  rewrite E1 in Q. assert (G0 : 0 <= ridge k * Sum p (fun j => (w j - v j) ^ 2)).
  { apply Rmult_le_pos; [|apply Sum_nonneg; intros; apply pow2_ge_0]. destruct k as [a|a r|a g]; cbn in *; [lra| |contradiction]. apply Rmult_le_pos; lra. }
  assert (K3 : (c - c') * Sum p (fun j => Rabs (v j) - Rabs (w j)) <= Rabs (c - c') * Sum p (fun j => Rabs (w j - v j))).
  { apply Rle_trans with (1 := Rle_abs _). rewrite Rabs_mult. apply Rmult_le_compat_l; [apply Rabs_pos|]. eapply abs_sums; eauto. }
  assert (K4 : (ridge k' - ridge k) * Sum p (fun j => v j * (w j - v j)) <= Rabs (ridge k - ridge k') * Sum p (fun j => Rabs (v j) * Rabs (w j - v j))).
  { apply Rle_trans with (1 := Rle_abs _). rewrite Rabs_mult, Rabs_minus_sym. apply Rmult_le_compat_l; [apply Rabs_pos|]. 
    assert (H : forall q, Rabs (Sum q (fun j => v j * (w j - v j))) <= Sum q (fun j => Rabs (v j) * Rabs (w j - v j))); [|apply H].
    induction q as [|q IH]; [rewrite !Sum_0, Rabs_R0; lra|]. rewrite !Sum_S. apply Rle_trans with (1 := Rabs_triang _ _). rewrite Rabs_mult. apply Rplus_le_compat; auto. lra. }
  lra.
Qed.
(** *** fits *)
Section Fits.
Context (srt srt' : list xr -> list nat) (VS : valid_sort xops srt) (VS' : valid_sort xops srt') (n p : nat) (Hn : (1 <= n)%nat).
Variables (X : rmat) (y : nat -> R) (l : single_loss) (k k' : single_pen) (c c' : R) (s s' : solver xr) (fit fit' : nat -> res (result (list xr) (estimator_error xr))) (t t' : R).
Hypotheses (HF : single_fit srt n p X y l k s fit) (HF' : single_fit srt' n p X y l k' s' fit') (Hy : targets_ok l n y) (Hw : l1_weight k c) (Hw' : l1_weight k' c')
  (HA : accepted fit) (HA' : accepted fit') (Et : s_tolerance s = Fin t) (Et' : s_tolerance s' = Fin t') (Ht : 0 < t) (Ht' : 0 < t')
  (Hq : forall q, In q [s; s'] -> (1 <= s_ws_start_size q)%nat /\ (1 <= s_max_epochs q)%nat /\ calm_schedule (s_use_acceleration q) (s_K q) (s_max_epochs q) /\
     accel_safe (s_use_acceleration q) (s_K q) (Nat.min (s_ws_start_size q) p) (s_max_epochs q)).
Lemma conv_of (k0 : single_pen) (c0 : R) : l1_weight k0 c0 -> convex1 k0 /\ forall cmp, steps_ok cmp k0 l n p X.
Proof. intros H. destruct k0; cbn in *; try contradiction; split; auto. Qed.
Lemma both : exists N w v, (forall m, (N <= m)%nat -> fit m = Ret (Ok (xv p w)) /\ fit' m = Ret (Ok (xv p v))) /\
  stationary t (loss1 l n y) p X (pen1 k) w /\ stationary t' (loss1 l n y) p X (pen1 k') v /\ pen1_range k /\ pen1_range k'.
Proof.
  destruct (Hq s (or_introl eq_refl)) as (A1 & A2 & A3 & A4). destruct (Hq s' (or_intror (or_introl eq_refl))) as (B1 & B2 & B3 & B4).
  destruct (conv_of k c Hw) as [C1 C2]. destruct (conv_of k' c' Hw') as [C1' C2'].
  destruct (c27_single srt VS n p Hn X y l k s fit HF Hy (C2 Rlt) t HA Et Ht A1 A2 A3 A4) as (N & w & Hst & Hall).
  destruct (c27_single srt' VS' n p Hn X y l k' s' fit' HF' Hy (C2' Rlt) t' HA' Et' Ht' B1 B2 B3 B4) as (N' & v & Hst' & Hall').
  exists (Nat.max N N'), w, v. split; [intros m Hm; split; [apply Hall|apply Hall']; lia|]. split; auto. split; auto. split.
  - destruct (inv1 srt VS n p Hn X y l k s fit HF Hy (C2 Rle) N _ (Hall N (le_n N))) as (H & _); auto.
  - destruct (inv1 srt' VS' n p Hn X y l k' s' fit' HF' Hy (C2' Rle) N' _ (Hall' N' (le_n N'))) as (H & _); auto.
Qed.
Lemma c100_fit_coefficients : 0 < ridge k -> exists N w v, (forall m, (N <= m)%nat -> fit m = Ret (Ok (xv p w)) /\ fit' m = Ret (Ok (xv p v))) /\
  ridge k * sqrt (Sum p (fun j => (w j - v j) ^ 2)) <= sqrt (INR p) * (t + t' + Rabs (c - c')) + Rabs (ridge k - ridge k') * sqrt (Sum p (fun j => v j ^ 2)).
Proof.
  intros Hg. destruct both as (N & w & v & Hall & Hst & Hst' & Hr & Hr'). exists N, w, v. split; auto.
  destruct (conv_of k c Hw) as [C1 _]. destruct (conv_of k' c' Hw') as [C1' _].
  apply (c100_coefficients l n p Hn X y k k' c c' t t' w v); auto. lra.
Qed.
Lemma c100_fit_predictions : l = Squared -> 0 < c -> 0 < c' -> exists N w v, (forall m, (N <= m)%nat -> fit m = Ret (Ok (xv p w)) /\ fit' m = Ret (Ok (xv p v))) /\
  let o := Sum n (fun i => y i ^ 2) / (2 * INR n) in
  Sum n (fun i => (lin p X w i - lin p X v i) ^ 2) / INR n <= (t + t' + Rabs (c - c') + Rabs (ridge k - ridge k') * (o / c')) * (o / c + o / c').
Proof.
  intros El Hc0 Hc0'. destruct both as (N & w & v & Hall & Hst & Hst' & Hr & Hr'). exists N, w, v. split; auto. intros o.
  destruct (conv_of k c Hw) as [C1 C2]. destruct (conv_of k' c' Hw') as [C1' C2']. destruct (Hall N (le_n N)) as [F1 F2].
  destruct (loss_bound srt VS n p Hn X y l k s fit HF Hy (C2 Rle) N _ F1) as (w' & Ew & _ & Bw). destruct (loss_bound srt' VS' n p Hn X y l k' s' fit' HF' Hy (C2' Rle) N _ F2) as (v' & Ev & _ & Bv).
  specialize (Bw c Hw). specialize (Bv c' Hw'). rewrite (Sum_ext p (fun j => Rabs (w' j)) (fun j => Rabs (w j))) in Bw by (intros; rewrite (xv_inj p w w' Ew); auto).
  rewrite (Sum_ext p (fun j => Rabs (v' j)) (fun j => Rabs (v j))) in Bv by (intros; rewrite (xv_inj p v v' Ev); auto).
  subst l. rewrite loss1_0 in Bw, Bv by auto. fold o in Bw, Bv. pose proof (loss1_nonneg Squared n y (lin p X w') Hn). pose proof (loss1_nonneg Squared n y (lin p X v') Hn).
  assert (Lw : Sum p (fun j => Rabs (w j)) <= o / c) by (apply Rmult_le_reg_l with c; auto; replace (c * (o / c)) with o by (field; lra); lra).
  assert (Lv : Sum p (fun j => Rabs (v j)) <= o / c') by (apply Rmult_le_reg_l with c'; auto; replace (c' * (o / c')) with o by (field; lra); lra).
  pose proof (c100_predictions n p X y k k' c c' t t' w v Hn Hr Hr' C1 C1' Hw Hw' Hst Hst') as Q. unfold msp in Q.
  rewrite (Sum_ext n _ (fun i => (lin p X w i - lin p X v i) ^ 2)) in Q by (intros; rewrite lin_minus; reflexivity).
  apply Rle_trans with (1 := Q). set (D := Sum p (fun j => Rabs (w j - v j))).
  assert (HD : D <= o / c + o / c').
  { apply Rle_trans with (Sum p (fun j => Rabs (w j)) + Sum p (fun j => Rabs (v j))); [|lra]. rewrite <- Sum_plus. apply Sum_le. intros j _. unfold Rminus. apply Rle_trans with (1 := Rabs_triang _ _). rewrite Rabs_Ropp. lra. }
  assert (HD0 : 0 <= D) by (apply Sum_nonneg; intros; apply Rabs_pos).
  assert (HV0 : 0 <= Sum p (fun j => Rabs (v j))) by (apply Sum_nonneg; intros; apply Rabs_pos).
  assert (HP : Sum p (fun j => Rabs (v j) * Rabs (w j - v j)) <= o / c' * D).
  { apply Rle_trans with (Sum p (fun j => Rabs (v j)) * D); [|apply Rmult_le_compat_r; auto]. rewrite <- Sum_scal_r. apply Sum_le. intros j Hj. apply Rmult_le_compat_l; [apply Rabs_pos|].
    apply (Sum_ge_term p (fun j => Rabs (w j - v j))); auto. intros. apply Rabs_pos. }
  pose proof (Rabs_pos (c - c')). pose proof (Rabs_pos (ridge k - ridge k')) as HR.
  apply Rle_trans with ((t + t' + Rabs (c - c') + Rabs (ridge k - ridge k') * (o / c')) * D).
  - pose proof (Rmult_le_compat_l _ _ _ HR HP). lra.
  - apply Rmult_le_compat_l; auto. assert (0 <= Rabs (ridge k - ridge k') * (o / c')) by (apply Rmult_le_pos; lra). lra.
Qed.
End Fits.
