(** Special and limiting settings: an elastic net without squares, regression without absolute
    values, and similar columns. *)
From Coq Require Import List ZArith Bool Arith Reals Lra Lia FunctionalExtensionality.
From Verif Require Import Ops Arr MUtils MDatasets MHyper MEstimators XR SpecPen VecR PBase RSum PProx SpecLin SpecData PDatafit PCalc PDataProps SpecSolve PLaws PSubdiff PRef PRefCD PRefPen PFit PDescent PConv PTheory SpecOpt PFitOpt PCert PStrict SpecNull PNullFit PMore SpecSym PSym SpecPath PPath PStab PScreen SpecLimits.
Import ListNotations.
Open Scope R_scope.

(** *** an elastic net whose [l1_ratio] is one *)
Lemma ratio_one_prox a : prox1 (EnetPen a 1) = prox1 (LassoPen a).
Proof. apply functional_extensionality. intros v. apply functional_extensionality. intros s. cbn. unfold enet_prox. replace (1 + s * (1 - 1) * a) with 1 by ring. replace (1 * a * s) with (a * s) by ring. field. Qed.
Lemma ratio_one_pen a : pen1 (EnetPen a 1) = pen1 (LassoPen a).
Proof. apply functional_extensionality. intros v. cbn. unfold enet_pen, abs_pen. field. Qed.
Lemma ratio_one_dist a : dist1 (EnetPen a 1) = dist1 (LassoPen a).
Proof.
  apply functional_extensionality. intros w. apply functional_extensionality. intros g. cbn. unfold r_l1l2_score, r_l1_score. rewrite Rmult_1_r.
  destruct (Reqb w 0); auto. f_equal. ring.
Qed.
Lemma ratio_one l a n p X y : prob1 l (EnetPen a 1) n p X y = prob1 l (LassoPen a) n p X y.
Proof. unfold prob1. destruct l; rewrite ratio_one_prox, ratio_one_pen, ratio_one_dist; auto. Qed.
Lemma ratio_one_fit srt (VS : valid_sort xops srt) n p X y l a s fit fit' : (1 <= n)%nat -> single_fit srt n p X y l (EnetPen a 1) s fit -> single_fit srt n p X y l (LassoPen a) s fit' ->
  accepted fit -> accepted fit' -> forall m, fit m = fit' m.
Proof.
  intros Hn HF HF' HA HA' m.
  destruct (single_run srt VS n p Hn _ _ _ _ _ _ HF) as [(e & He)|[_ H]]; [destruct (HA 0%nat e); auto|].
  destruct (single_run srt VS n p Hn _ _ _ _ _ _ HF') as [(e & He)|[_ H']]; [destruct (HA' 0%nat e); auto|].
  rewrite H, H', ratio_one. auto.
Qed.

(** *** no absolute values in the penalty *)
Lemma equations_from t l k n p X y w b : (1 <= n)%nat -> pen1_range k -> l1_weight k 0 -> l2_weight k b ->
  stationary t (loss1 l n y) p X (pen1 k) w -> solves_equations t l n p X y b w.
Proof.
  intros Hn Hr Hc Hb H j Hj. destruct (corr_read l k n p X y w t 0 b j Hn Hr Hc Hb Hj H) as [A B].
  destruct (Req_dec (w j) 0) as [E|E].
  - specialize (A E). rewrite E, Rmult_0_r, Rminus_0_r. lra.
  - specialize (B E). rewrite Rmult_0_l, Rplus_0_l in B. auto.
Qed.
Lemma run_settles srt (VS : valid_sort xops srt) n p X y l k s fit t : (1 <= n)%nat -> targets_ok l n y -> single_fit srt n p X y l k s fit -> accepted fit -> patient p 1 s t -> convex1 k ->
  pen1_range k /\ settles p (stationary t (loss1 l n y) p X (pen1 k)) fit.
Proof.
  intros Hn Hy HF Hacc (Et & Ht & A1 & A2 & A3 & A4) Hcx. rewrite Nat.mul_1_r in A4. split.
  - destruct (single_run srt VS n p Hn _ _ _ _ _ _ HF) as [(e & He)|[H _]]; [destruct (Hacc 0%nat e)|]; auto.
  - apply (c27_single srt VS n p Hn X y l k s fit HF Hy) with (tol := t); auto. destruct k; cbn in *; tauto.
Qed.
Lemma l1_convex k c : l1_weight k c -> convex1 k.
Proof. destruct k; cbn; tauto. Qed.
Lemma equations_fit srt (VS : valid_sort xops srt) n p X y l k s fit t b : (1 <= n)%nat -> targets_ok l n y -> single_fit srt n p X y l k s fit -> accepted fit -> patient p 1 s t ->
  l1_weight k 0 -> l2_weight k b -> settles p (fun w => solves_equations t l n p X y b w) fit.
Proof.
  intros Hn Hy HF Hacc HP Hc Hb. destruct (run_settles srt VS n p X y l k s fit t Hn Hy HF Hacc HP (l1_convex _ _ Hc)) as (Hr & N & w & Hw & Hall).
  exists N, w. split; auto. eapply equations_from; eauto.
Qed.
(** without any penalty the training loss is nearly as small as that of any other model *)
Lemma unpenalised_fit srt (VS : valid_sort xops srt) n p X y l s fit t : (1 <= n)%nat -> targets_ok l n y -> single_fit srt n p X y l (LassoPen 0) s fit -> accepted fit -> patient p 1 s t ->
  settles p (fun w => solves_equations t l n p X y 0 w /\ forall v, loss1 l n y (lin p X w) <= loss1 l n y (lin p X v) + t * gap p w v) fit.
Proof.
  intros Hn Hy HF Hacc HP. destruct (run_settles srt VS n p X y l _ s fit t Hn Hy HF Hacc HP I) as (Hr & N & w & Hw & Hall).
  exists N, w. split; auto. split; [eapply equations_from; eauto; reflexivity|]. intros v.
  pose proof (c28_single l (LassoPen 0) n p X y t w v Hn Hr I Hw) as H. unfold objective in H. rewrite !(Sum_zero p (fun j => pen1 _ _)) in H by (intros; cbn; unfold abs_pen; ring).
  unfold gap. lra.
Qed.
(** exact solutions of the ridge equations are exactly stationary points *)
Lemma equations_stationary l a n p X y v : (1 <= n)%nat -> 0 < a -> solves_equations 0 l n p X y a v -> stationary 0 (loss1 l n y) p X (pen1 (EnetPen a 0)) v.
Proof.
  intros Hn Ha H. rewrite stationary_iff by (auto; cbn; lra). intros j Hj. specialize (H j Hj). rewrite corr_grad in H by auto. cbn [dist1]. unfold r_l1l2_score.
  destruct (Reqb (v j) 0) eqn:E.
  - apply Reqb_spec in E. rewrite E, Rmult_0_r, Rminus_0_r, Rabs_Ropp in H. rewrite Rmult_0_r, Rminus_0_r. rewrite Rmax_right; auto. apply Rabs_pos.
  - replace (- dloss1 n p l X y v j - a * (rsign (v j) * 0 + (1 - 0) * v j)) with (- dloss1 n p l X y v j - a * v j) by ring. auto.
Qed.
Lemma ridge_fit srt (VS : valid_sort xops srt) n p X y l a s fit t v : (1 <= n)%nat -> targets_ok l n y -> 0 < a -> single_fit srt n p X y l (EnetPen a 0) s fit -> accepted fit -> patient p 1 s t ->
  solves_equations 0 l n p X y a v ->
  settles p (fun w => solves_equations t l n p X y a w /\ Sum p (fun j => (w j - v j) ^ 2) <= INR p * (t / a) ^ 2) fit.
Proof.
  intros Hn Hy Ha HF Hacc HP Hv. destruct (run_settles srt VS n p X y l _ s fit t Hn Hy HF Hacc HP I) as (Hr & N & w & Hw & Hall).
  exists N, w. split; auto. destruct HP as (_ & Ht & _). split; [eapply equations_from; eauto; cbn; ring|].
  pose proof (enet_agree l a 0 n p X y t 0 w v Hn Ha ltac:(lra) ltac:(lra) Hw (equations_stationary l a n p X y v Hn Ha Hv)) as Q.
  rewrite Rplus_0_r, Rminus_0_r, Rmult_1_r in Q. auto.
Qed.

(** *** similar columns *)
Lemma Sum_Rabs k f : Rabs (Sum k f) <= Sum k (fun i => Rabs (f i)).
Proof. induction k; rewrite ?Sum_S, ?Sum_0; [rewrite Rabs_R0; lra|]. eapply Rle_trans; [apply Rabs_triang|]. lra. Qed.
Lemma grouping_corr l a r n p X y w t j k : (1 <= n)%nat -> 0 < a -> 0 <= r < 1 -> (j < p)%nat -> (k < p)%nat -> stationary t (loss1 l n y) p X (pen1 (EnetPen a r)) w ->
  a * (1 - r) * Rabs (w j - w k) <= Rabs (correlation l n p X y w j - correlation l n p X y w k) + 2 * t.
Proof.
  intros Hn Ha Hr Hj Hk H. assert (Hrg : pen1_range (EnetPen a r)) by (cbn; lra). rewrite !corr_grad by auto.
  destruct (H j Hj) as (d & (g & Dg & (_ & s & Hs & Ed)) & Hd). destruct (H k Hk) as (d' & (g' & Dg' & (_ & s' & Hs' & Ed')) & Hd').
  assert (g = dloss1 n p l X y w j) as -> by (eapply uniqueness_limite; [exact Dg|apply loss1_deriv; auto]).
  assert (g' = dloss1 n p l X y w k) as -> by (eapply uniqueness_limite; [exact Dg'|apply loss1_deriv; auto]).
  set (G := dloss1 n p l X y w j) in *. set (G' := dloss1 n p l X y w k) in *.
  pose proof (strong_grad _ _ _ _ (modulus_nonneg _ Hrg) (pen1_strong _ Hrg I) Hs (w k)) as Q.
  pose proof (strong_grad _ _ _ _ (modulus_nonneg _ Hrg) (pen1_strong _ Hrg I) Hs' (w j)) as Q'. cbn [modulus] in Q, Q'.
  set (m := a * (1 - r)) in *. assert (Hm : 0 < m) by (apply Rmult_lt_0_compat; lra).
  assert (M : m * (w j - w k) ^ 2 <= (s - s') * (w j - w k)) by nra.
  assert (M' : m * Rabs (w j - w k) <= Rabs (s - s')).
  { destruct (Req_dec (w j) (w k)) as [E|E]; [rewrite E, Rminus_diag_eq, Rabs_R0, Rmult_0_r by auto; apply Rabs_pos|].
    assert (P : 0 < Rabs (w j - w k)) by (apply Rabs_pos_lt; lra). apply Rmult_le_reg_r with (Rabs (w j - w k)); auto.
    rewrite Rmult_assoc, <- (Rabs_mult (s - s')). replace (Rabs (w j - w k) * Rabs (w j - w k)) with ((w j - w k) ^ 2) by (rewrite <- Rabs_mult, Rabs_right by nra; ring).
    eapply Rle_trans; [exact M|apply Rle_abs]. }
  eapply Rle_trans; [exact M'|]. replace (s - s') with ((- G - - G') - (- G - s) + (- G' - s')) by ring.
  eapply Rle_trans; [apply Rabs_triang|]. eapply Rle_trans; [apply Rplus_le_compat_r, Rabs_triang|]. rewrite Rabs_Ropp. lra.
Qed.
Lemma corr_gap l n p X y w j k : (1 <= n)%nat -> targets_ok l n y -> loss1 l n y (lin p X w) <= loss1 l n y (fun _ => 0) ->
  Rabs (correlation l n p X y w j - correlation l n p X y w k) <= column_gap l n X y j k.
Proof.
  intros Hn Hy HL. pose proof (INR_npos n Hn) as HN. destruct l; cbn [correlation column_gap].
  - set (e := fun i => y i - lin p X w i).
    assert (RE : rms n e <= rms n y).
    { unfold rms. apply sqrt_le_1_alt. cbn [loss1] in HL. unfold quad_loss in HL.
      assert (Q : Sum n (fun i => e i ^ 2) <= Sum n (fun i => y i ^ 2)).
      { apply Rmult_le_reg_r with (/ (2 * INR n)); [apply Rinv_0_lt_compat; lra|]. unfold Rdiv in HL.
        rewrite (Sum_ext n (fun i => y i ^ 2) (fun i => (y i - 0) ^ 2)) by (intros; ring). exact HL. }
      apply Rmult_le_compat_r; auto. left. apply Rinv_0_lt_compat; lra. }
    assert (E : forall f, Sum n (fun i => f i * e i) / INR n <= rms n f * rms n y).
    { intros f. eapply Rle_trans; [apply rms_CS; auto|]. apply Rmult_le_compat_l; auto. apply rms_nonneg. }
    assert (D : Sum n (fun i => X i j * (y i - lin p X w i)) / INR n - Sum n (fun i => X i k * (y i - lin p X w i)) / INR n = Sum n (fun i => (X i j - X i k) * e i) / INR n).
    { unfold Rdiv. rewrite <- Rmult_minus_distr_r, <- Sum_minus. f_equal. apply Sum_ext. intros. unfold e. ring. }
    rewrite D. apply Rabs_le. split; [|apply E]. pose proof (E (fun i => - (X i j - X i k))) as E'. cbv beta in E'.
    assert (R : rms n (fun i => - (X i j - X i k)) = rms n (fun i => X i j - X i k)) by (unfold rms; do 2 f_equal; apply Sum_ext; intros; ring). rewrite R in E'.
    rewrite (Sum_ext n (fun i => - (X i j - X i k) * e i) (fun i => - ((X i j - X i k) * e i))), Sum_opp in E' by (intros; ring).
    unfold Rdiv in *. lra.
  - set (e := fun i => y i / (1 + exp (y i * lin p X w i))).
    assert (B : forall i, (i < n)%nat -> Rabs (e i) <= 1).
    { intros i Hi. unfold e. pose proof (exp_pos (y i * lin p X w i)) as P. unfold Rdiv. rewrite Rabs_mult, (Rabs_right (/ _)) by (left; apply Rinv_0_lt_compat; lra).
      rewrite <- (Rmult_1_r 1). apply Rmult_le_compat; try apply Rabs_pos; [left; apply Rinv_0_lt_compat; lra|apply Hy; auto|].
      rewrite <- Rinv_1. apply Rinv_le_contravar; lra. }
    assert (D : Sum n (fun i => X i j * e i) / INR n - Sum n (fun i => X i k * e i) / INR n = Sum n (fun i => (X i j - X i k) * e i) / INR n).
    { unfold Rdiv. rewrite <- Rmult_minus_distr_r, <- Sum_minus. f_equal. apply Sum_ext. intros. ring. }
    unfold e in *. rewrite D. fold e. unfold Rdiv at 1. rewrite Rabs_mult, (Rabs_right (/ INR n)) by (left; apply Rinv_0_lt_compat; lra).
    apply Rmult_le_compat_r; [left; apply Rinv_0_lt_compat; lra|]. eapply Rle_trans; [apply Sum_Rabs|]. apply Sum_le. intros i Hi.
    rewrite Rabs_mult. rewrite <- (Rmult_1_r (Rabs (X i j - X i k))) at 2. apply Rmult_le_compat_l; [apply Rabs_pos|apply B; auto].
Qed.
Lemma grouping_fit srt (VS : valid_sort xops srt) n p X y l a r s fit t : (1 <= n)%nat -> targets_ok l n y -> 0 < a -> 0 <= r < 1 -> single_fit srt n p X y l (EnetPen a r) s fit -> accepted fit -> patient p 1 s t ->
  settles p (fun w => forall j k, (j < p)%nat -> (k < p)%nat -> Rabs (w j - w k) <= (column_gap l n X y j k + 2 * t) / (a * (1 - r))) fit.
Proof.
  intros Hn Hy Ha Hr HF Hacc HP. destruct (run_settles srt VS n p X y l _ s fit t Hn Hy HF Hacc HP I) as (Hrg & N & w & Hw & Hall).
  exists N, w. split; auto. intros j k Hj Hk. assert (Hm : 0 < a * (1 - r)) by (apply Rmult_lt_0_compat; lra).
  apply Rmult_le_reg_l with (a * (1 - r)); auto. replace (a * (1 - r) * ((column_gap l n X y j k + 2 * t) / (a * (1 - r)))) with (column_gap l n X y j k + 2 * t) by (field; lra).
  eapply Rle_trans; [apply (grouping_corr l a r n p X y w t j k); auto|]. apply Rplus_le_compat_r. apply corr_gap; auto.
  destruct (loss_bound srt VS n p Hn X y l _ s fit HF Hy I N _ (Hall N (le_n _))) as (w' & E' & _ & B).
  specialize (B (a * r) eq_refl). assert (Q : 0 <= a * r * Sum p (fun j => Rabs (w' j))) by (apply Rmult_le_pos; [apply Rmult_le_pos; lra|apply Sum_nonneg; intros; apply Rabs_pos]).
  assert (E : loss1 l n y (lin p X w) = loss1 l n y (lin p X w')).
  { assert (L : forall i, lin p X w i = lin p X w' i) by (intros i; unfold lin; apply Sum_ext; intros q Hq; rewrite (xv_inj p w w' E' q Hq); auto).
    destruct l; cbn [loss1]; unfold quad_loss, logistic_loss; f_equal; apply Sum_ext; intros; rewrite L; auto. }
  rewrite E. lra.
Qed.
Lemma twins_gap l n X y j k : (1 <= n)%nat -> (forall i, (i < n)%nat -> X i j = X i k) -> column_gap l n X y j k = 0.
Proof.
  intros Hn H. assert (Z : forall i, (i < n)%nat -> X i j - X i k = 0) by (intros i Hi; rewrite H; auto; ring). destruct l; cbn [column_gap]; unfold rms.
  - rewrite (Sum_ext n (fun i => (X i j - X i k) ^ 2) (fun _ => 0)), Sum_zero by (intros; rewrite ?Z; auto; ring). unfold Rdiv. rewrite Rmult_0_l, sqrt_0. ring.
  - rewrite (Sum_ext n (fun i => Rabs (X i j - X i k)) (fun _ => 0)), Sum_zero by (intros; rewrite ?Z, ?Rabs_R0; auto). unfold Rdiv. ring.
Qed.
Lemma twins_fit srt (VS : valid_sort xops srt) n p X y l a r s fit t : (1 <= n)%nat -> targets_ok l n y -> 0 < a -> 0 <= r < 1 -> single_fit srt n p X y l (EnetPen a r) s fit -> accepted fit -> patient p 1 s t ->
  settles p (fun w => forall j k, (j < p)%nat -> (k < p)%nat -> (forall i, (i < n)%nat -> X i j = X i k) -> Rabs (w j - w k) <= 2 * t / (a * (1 - r))) fit.
Proof.
  intros Hn Hy Ha Hr HF Hacc HP. destruct (grouping_fit srt VS n p X y l a r s fit t Hn Hy Ha Hr HF Hacc HP) as (N & w & Hw & Hall). exists N, w. split; auto.
  intros j k Hj Hk E. specialize (Hw j k Hj Hk). rewrite twins_gap, Rplus_0_l in Hw; auto.
Qed.
