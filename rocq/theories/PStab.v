(** Fits with different targets, and with the columns in another order. *)
From Coq Require Import List ZArith Bool Arith Reals Lra Lia Permutation.
From Verif Require Import Ops Arr MUtils MDatasets MHyper MEstimators XR SpecPen VecR PBase RSum PProx SpecLin SpecData PDatafit PCalc PDataProps SpecSolve PLaws PSubdiff PDescent PConv PTheory SpecOpt PFitOpt PCert PStrict SpecNull PNullFit PMore SpecSym PSym SpecPath PPath.
Import ListNotations.
Open Scope R_scope.

(** *** targets *)
Lemma agree2 l k n p X y y' e1 e2 w v : (1 <= n)%nat -> pen1_range k -> convex1 k ->
  stationary e1 (loss1 l n y) p X (pen1 k) w -> stationary e2 (loss1 l n y') p X (pen1 k) v ->
  Sum p (fun j => (dloss1 n p l X y w j - dloss1 n p l X y' v j) * (w j - v j)) + modulus k * Sum p (fun j => (w j - v j) ^ 2) <= (e1 + e2) * gap p w v.
Proof.
  intros Hn Hr Hc H1 H2. pose proof (modulus_nonneg k Hr) as Hmu. pose proof (pen1_strong k Hr Hc) as HS. unfold gap.
  rewrite <- !Sum_scal, <- Sum_plus. apply Sum_le. intros j Hj.
  destruct (H1 j Hj) as (d & (g & Dg & (_ & s & Hs & Ed)) & Hd). destruct (H2 j Hj) as (d' & (g' & Dg' & (_ & s' & Hs' & Ed')) & Hd').
  assert (g = dloss1 n p l X y w j) as -> by (eapply uniqueness_limite; [exact Dg|apply loss1_deriv; auto]).
  assert (g' = dloss1 n p l X y' v j) as -> by (eapply uniqueness_limite; [exact Dg'|apply loss1_deriv; auto]).
  pose proof (strong_grad _ _ _ _ Hmu HS Hs (v j)) as Q1. pose proof (strong_grad _ _ _ _ Hmu HS Hs' (w j)) as Q2.
  set (G := dloss1 n p l X y w j) in *. set (G' := dloss1 n p l X y' v j) in *.
  assert (B1 : - (- G - s) * (w j - v j) <= e1 * Rabs (w j - v j)).
  { apply Rle_trans with (1 := Rle_abs _). rewrite Rabs_mult, Rabs_Ropp, Ed. apply Rmult_le_compat_r; [apply Rabs_pos|auto]. }
  assert (B2 : (- G' - s') * (w j - v j) <= e2 * Rabs (w j - v j)).
  { apply Rle_trans with (1 := Rle_abs _). rewrite Rabs_mult, Ed'. apply Rmult_le_compat_r; [apply Rabs_pos|auto]. }
  replace ((v j - w j) ^ 2) with ((w j - v j) ^ 2) in Q1 by ring. set (D := (w j - v j) ^ 2) in *.
  assert (E : (G - G') * (w j - v j) = - (- G - s) * (w j - v j) + (- G' - s') * (w j - v j) + s * (v j - w j) + s' * (w j - v j)) by ring. lra.
Qed.
Lemma quad_inner n p X y y' w v : (1 <= n)%nat ->
  Sum p (fun j => (dloss1 n p Squared X y w j - dloss1 n p Squared X y' v j) * (w j - v j)) =
  Sum n (fun i => (lin p X w i - lin p X v i) ^ 2) / INR n - Sum n (fun i => (y i - y' i) * (lin p X w i - lin p X v i)) / INR n.
Proof.
  intros Hn. pose proof (INR_npos n Hn) as HN. cbn [dloss1]. unfold gq.
  rewrite (Sum_ext p _ (fun j => Sum n (fun i => X i j * (lin p X w i - lin p X v i - (y i - y' i)) * (w j - v j)) / INR n)).
  - rewrite Sum_div, Sum_swap. unfold Rdiv. rewrite <- Rmult_minus_distr_r. f_equal. rewrite <- Sum_minus. apply Sum_ext. intros i Hi.
    rewrite (Sum_ext p _ (fun j => (lin p X w i - lin p X v i - (y i - y' i)) * (X i j * (w j - v j)))) by (intros; ring). rewrite Sum_scal.
    change (Sum p (fun j => X i j * (w j - v j))) with (lin p X (fun j => w j - v j) i). rewrite lin_minus. ring.
  - intros j Hj. rewrite Sum_scal_r.
    rewrite (Sum_ext n (fun i => X i j * (lin p X w i - lin p X v i - (y i - y' i))) (fun i => (X i j * lin p X w i - X i j * y i) - (X i j * lin p X v i - X i j * y' i))) by (intros; ring).
    rewrite !Sum_minus. field. lra.
Qed.
Lemma rms_nonneg n f : 0 <= rms n f.
Proof. apply sqrt_pos. Qed.
Lemma rms_sq n f : (1 <= n)%nat -> rms n f ^ 2 = Sum n (fun i => f i ^ 2) / INR n.
Proof. intros Hn. pose proof (INR_npos n Hn). unfold rms. apply pow2_sqrt. apply Rmult_le_pos; [apply Sum_nonneg; intros; apply pow2_ge_0|left; apply Rinv_0_lt_compat; lra]. Qed.
Lemma sq_le_abs a b : 0 <= b -> a ^ 2 <= b ^ 2 -> a <= b.
Proof. intros Hb H. destruct (Rle_or_lt a b) as [|Hl]; auto. assert (b ^ 2 < a ^ 2); [|lra]. replace (a ^ 2) with (b ^ 2 + (a - b) * (a + b)) by ring. assert (0 < (a - b) * (a + b)) by (apply Rmult_lt_0_compat; lra). lra. Qed.
Lemma rms_CS n f g : (1 <= n)%nat -> Sum n (fun i => f i * g i) / INR n <= rms n f * rms n g.
Proof.
  intros Hn. pose proof (INR_npos n Hn) as HN. apply sq_le_abs; [apply Rmult_le_pos; apply rms_nonneg|]. rewrite Rpow_mult_distr, !rms_sq by auto.
  pose proof (Sum_CS n f g) as H. apply Rmult_le_reg_l with (INR n ^ 2); [apply pow_lt; lra|].
  replace (INR n ^ 2 * (Sum n (fun i => f i * g i) / INR n) ^ 2) with (Sum n (fun i => f i * g i) ^ 2) by (field; lra).
  replace (INR n ^ 2 * (Sum n (fun i => f i ^ 2) / INR n * (Sum n (fun i => g i ^ 2) / INR n))) with (Sum n (fun i => f i ^ 2) * Sum n (fun i => g i ^ 2)) by (field; lra). auto.
Qed.
Lemma stab_arith A B E M : 0 <= A -> 0 <= B -> 0 <= E -> 0 <= M -> A ^ 2 - B * A + M <= E -> A <= B + sqrt E /\ M <= E + B ^ 2 / 4.
Proof.
  intros HA HB HE HM H. pose proof (sqrt_pos E) as Hs. pose proof (pow2_sqrt E HE) as Es. split.
  - destruct (Rle_or_lt A (B + sqrt E)) as [|Hl]; auto. assert (sqrt E * sqrt E < A * (A - B)); [|nra]. apply Rmult_le_0_lt_compat; lra.
  - pose proof (pow2_ge_0 (A - B / 2)) as Q. replace ((A - B / 2) ^ 2) with (A ^ 2 - B * A + B ^ 2 / 4) in Q by field. lra.
Qed.
(** predictions move by at most as much as the targets, up to the tolerances *)
Lemma targets_gap k n p X y y' e1 e2 w v : (1 <= n)%nat -> pen1_range k -> convex1 k -> 0 <= e1 + e2 ->
  stationary e1 (quad_loss n y) p X (pen1 k) w -> stationary e2 (quad_loss n y') p X (pen1 k) v ->
  rms n (fun i => lin p X w i - lin p X v i) <= rms n (fun i => y i - y' i) + sqrt ((e1 + e2) * gap p w v) /\
  modulus k * Sum p (fun j => (w j - v j) ^ 2) <= (e1 + e2) * gap p w v + rms n (fun i => y i - y' i) ^ 2 / 4.
Proof.
  intros Hn Hr Hc He H1 H2. pose proof (agree2 Squared k n p X y y' e1 e2 w v Hn Hr Hc H1 H2) as H. rewrite quad_inner in H by auto.
  rewrite <- (rms_sq n (fun i => lin p X w i - lin p X v i)) in H by auto.
  pose proof (rms_CS n (fun i => y i - y' i) (fun i => lin p X w i - lin p X v i) Hn) as C. cbv beta in C.
  apply stab_arith; try apply rms_nonneg; [apply Rmult_le_pos; [lra|apply gap_nonneg]|apply Rmult_le_pos; [apply modulus_nonneg; auto|apply Sum_nonneg; intros; apply pow2_ge_0]|lra].
Qed.
Lemma targets_fits srt srt' (VS : valid_sort xops srt) (VS' : valid_sort xops srt') n p X y y' k s s' fit fit' t1 t2 c : (1 <= n)%nat ->
  single_fit srt n p X y Squared k s fit -> single_fit srt' n p X y' Squared k s' fit' -> accepted fit -> accepted fit' ->
  patient p 1 s t1 -> patient p 1 s' t2 -> l1_weight k c -> 0 < c ->
  exists N w v, (forall m, (N <= m)%nat -> fit m = Ret (Ok (xv p w)) /\ fit' m = Ret (Ok (xv p v))) /\
    rms n (fun i => lin p X w i - lin p X v i) <= rms n (fun i => y i - y' i) + sqrt ((t1 + t2) * ((quad_loss n y (fun _ => 0) + quad_loss n y' (fun _ => 0)) / c)).
Proof.
  intros Hn HF HF' Hacc Hacc' (Et & Ht & A1 & A2 & A3 & A4) (Et' & Ht' & B1 & B2 & B3 & B4) Hw Hc. rewrite Nat.mul_1_r in A4, B4.
  assert (Hcx : convex1 k) by (clear - Hw; destruct k; cbn in *; tauto).
  assert (HS : forall cmp, steps_ok cmp k Squared n p X) by (clear - Hcx; intros; destruct k; cbn in *; tauto).
  destruct (c27_single srt VS n p Hn _ _ _ _ _ _ HF I (HS _) t1 Hacc Et Ht A1 A2 A3 A4) as (N & w & Hsw & Hall).
  destruct (c27_single srt' VS' n p Hn _ _ _ _ _ _ HF' I (HS _) t2 Hacc' Et' Ht' B1 B2 B3 B4) as (N' & v & Hsv & Hall').
  exists (Nat.max N N'), w, v. split; [intros m Hm; split; [apply Hall|apply Hall']; lia|].
  destruct (fit_size srt VS n p X y Squared _ s fit c N w Hn HF I Hw Hc (Hall N (le_n _))) as [R1 S1].
  destruct (fit_size srt' VS' n p X y' Squared _ s' fit' c N' v Hn HF' I Hw Hc (Hall' N' (le_n _))) as [_ S2].
  destruct (targets_gap k n p X y y' t1 t2 w v Hn R1 Hcx ltac:(lra) Hsw Hsv) as [G _].
  apply Rle_trans with (1 := G). apply Rplus_le_compat_l, sqrt_le_1_alt, Rmult_le_compat_l; [lra|].
  replace ((quad_loss n y (fun _ => 0) + quad_loss n y' (fun _ => 0)) / c) with (quad_loss n y (fun _ => 0) / c + quad_loss n y' (fun _ => 0) / c) by (field; lra).
  apply gap_bound; auto.
Qed.

Lemma agree2_mt k n p T X Y Y' e1 e2 W V : (1 <= n)%nat -> penT_range k -> convexT k ->
  stationary_mt e1 (quad_loss_mt n T Y) p T X (penT k) W -> stationary_mt e2 (quad_loss_mt n T Y') p T X (penT k) V ->
  Sum p (fun j => Sum T (fun t => (gq n X Y (lin_mt p X W) j t - gq n X Y' (lin_mt p X V) j t) * (W j t - V j t))) + modulus_mt k * Sum p (fun j => Sum T (fun t => (W j t - V j t) ^ 2))
    <= (e1 + e2) * gap_mt p T W V.
Proof.
  intros Hn Hr Hc H1 H2. unfold gap_mt. rewrite <- !Sum_scal, <- Sum_plus. apply Sum_le. intros j Hj.
  destruct (H1 j Hj) as (d & (g & Dg & (_ & s & Hs & Ed)) & Hd). destruct (H2 j Hj) as (d' & (g' & Dg' & (_ & s' & Hs' & Ed')) & Hd').
  set (G := gq n X Y (lin_mt p X W)) in *. set (G' := gq n X Y' (lin_mt p X V)) in *.
  assert (Eg : forall t, (t < T)%nat -> g t = G j t) by (intros t Ht; eapply uniqueness_limite; [apply Dg; auto|apply quad_mt_deriv; auto]).
  assert (Eg' : forall t, (t < T)%nat -> g' t = G' j t) by (intros t Ht; eapply uniqueness_limite; [apply Dg'; auto|apply quad_mt_deriv; auto]).
  pose proof (proj1 Hs) as Hl. pose proof (proj1 Hs') as Hl'.
  change (map (W j) (seq 0 T)) with (tab T (W j)) in Hs. change (map (V j) (seq 0 T)) with (tab T (V j)) in Hs'.
  pose proof (vstrong_grad k T _ _ Hr Hc Hs (V j)) as Q1. pose proof (vstrong_grad k T _ _ Hr Hc Hs' (W j)) as Q2.
  change (map (fun t => - g t) (seq 0 T)) with (tab T (fun t => - g t)) in Ed. rewrite (tab_nth_len T s 0 Hl), vminus_tab in Ed.
  rewrite (tab_ext T _ (fun t => - G j t - nth t s 0)) in Ed by (intros t Ht; rewrite Eg; auto).
  change (map (fun t => - g' t) (seq 0 T)) with (tab T (fun t => - g' t)) in Ed'. rewrite (tab_nth_len T s' 0 Hl'), vminus_tab in Ed'.
  rewrite (tab_ext T _ (fun t => - G' j t - nth t s' 0)) in Ed' by (intros t Ht; rewrite Eg'; auto).
  change (map (fun t => W j t - V j t) (seq 0 T)) with (tab T (fun t => W j t - V j t)). set (N := norm2 (tab T (fun t => W j t - V j t))) in *.
  assert (HN : 0 <= N) by apply norm2_pos.
  assert (B1 : - Sum T (fun t => (- G j t - nth t s 0) * (W j t - V j t)) <= e1 * N).
  { assert (CS := cauchy_schwarz (vscale (-1) (tab T (fun t => - G j t - nth t s 0))) (tab T (fun t => W j t - V j t))).
    rewrite dotp_scale_l, norm2_scale, dotp_tab, Ed in CS. replace (Rabs (-1)) with 1 in CS by (rewrite Rabs_left; lra). fold N in CS.
    assert (d * N <= e1 * N) by (apply Rmult_le_compat_r; auto). lra. }
  assert (B2 : Sum T (fun t => (- G' j t - nth t s' 0) * (W j t - V j t)) <= e2 * N).
  { assert (CS := cauchy_schwarz (tab T (fun t => - G' j t - nth t s' 0)) (tab T (fun t => W j t - V j t))).
    rewrite dotp_tab, Ed' in CS. fold N in CS. assert (d' * N <= e2 * N) by (apply Rmult_le_compat_r; auto). lra. }
  rewrite (Sum_ext T (fun t => (V j t - W j t) ^ 2) (fun t => (W j t - V j t) ^ 2)) in Q1 by (intros; ring). set (D := Sum T (fun t => (W j t - V j t) ^ 2)) in *.
  assert (E : Sum T (fun t => (G j t - G' j t) * (W j t - V j t)) = - Sum T (fun t => (- G j t - nth t s 0) * (W j t - V j t)) + Sum T (fun t => (- G' j t - nth t s' 0) * (W j t - V j t))
     + Sum T (fun t => nth t s 0 * (V j t - W j t)) + Sum T (fun t => nth t s' 0 * (W j t - V j t))).
  { rewrite <- Sum_opp, <- !Sum_plus. apply Sum_ext. intros. ring. }
  lra.
Qed.
Lemma quad_inner_mt n p T X Y Y' W V : (1 <= n)%nat ->
  Sum p (fun j => Sum T (fun t => (gq n X Y (lin_mt p X W) j t - gq n X Y' (lin_mt p X V) j t) * (W j t - V j t))) =
  Sum n (fun i => Sum T (fun t => (lin_mt p X W i t - lin_mt p X V i t) ^ 2)) / INR n - Sum n (fun i => Sum T (fun t => (Y i t - Y' i t) * (lin_mt p X W i t - lin_mt p X V i t))) / INR n.
Proof.
  intros Hn. pose proof (INR_npos n Hn) as HN. rewrite Sum_swap, (Sum_swap n T), (Sum_swap n T). unfold Rdiv. rewrite <- Rmult_minus_distr_r, <- Sum_minus.
  rewrite <- Sum_scal_r. apply Sum_ext. intros t Ht. exact (eq_trans (quad_inner n p X (fun i => Y i t) (fun i => Y' i t) (fun j => W j t) (fun j => V j t) Hn) (eq_sym (Rmult_minus_distr_r _ _ _))).
Qed.
Lemma rms_mt_nonneg n T f : 0 <= rms_mt n T f.
Proof. apply sqrt_pos. Qed.
Lemma rms_mt_sq n T f : (1 <= n)%nat -> rms_mt n T f ^ 2 = Sum n (fun i => Sum T (fun t => f i t ^ 2)) / INR n.
Proof. intros Hn. pose proof (INR_npos n Hn). unfold rms_mt. apply pow2_sqrt. apply Rmult_le_pos; [apply Sum_nonneg; intros; apply Sum_nonneg; intros; apply pow2_ge_0|left; apply Rinv_0_lt_compat; lra]. Qed.
Lemma Sum2_CS n T f g : Sum n (fun i => Sum T (fun t => f i t * g i t)) ^ 2 <= Sum n (fun i => Sum T (fun t => f i t ^ 2)) * Sum n (fun i => Sum T (fun t => g i t ^ 2)).
Proof.
  assert (P : forall (i : nat) (h : nat -> nat -> R), 0 <= Sum T (fun t => h i t ^ 2)) by (intros; apply Sum_nonneg; intros; apply pow2_ge_0).
  pose proof (Sum_CS n (fun i => sqrt (Sum T (fun t => f i t ^ 2))) (fun i => sqrt (Sum T (fun t => g i t ^ 2)))) as H. cbv beta in H.
  rewrite (Sum_ext n (fun i => sqrt (Sum T (fun t => f i t ^ 2)) ^ 2) (fun i => Sum T (fun t => f i t ^ 2))), (Sum_ext n (fun i => sqrt (Sum T (fun t => g i t ^ 2)) ^ 2) (fun i => Sum T (fun t => g i t ^ 2))) in H by (intros i0 _; apply pow2_sqrt; apply (P i0)).
  apply Rle_trans with (2 := H). rewrite <- (pow2_abs (Sum n (fun i => Sum T (fun t => f i t * g i t)))). apply pow_incr. split; [apply Rabs_pos|].
  apply Rle_trans with (1 := Rabs_Sum _ _). apply Sum_le. intros i _. apply sq_le_abs; [apply Rmult_le_pos; apply sqrt_pos|].
  rewrite pow2_abs, Rpow_mult_distr, !pow2_sqrt by apply P. apply Sum_CS.
Qed.
Lemma rms_mt_CS n T f g : (1 <= n)%nat -> Sum n (fun i => Sum T (fun t => f i t * g i t)) / INR n <= rms_mt n T f * rms_mt n T g.
Proof.
  intros Hn. pose proof (INR_npos n Hn) as HN. apply sq_le_abs; [apply Rmult_le_pos; apply rms_mt_nonneg|]. rewrite Rpow_mult_distr, !rms_mt_sq by auto.
  pose proof (Sum2_CS n T f g) as H. set (FG := Sum n (fun i => Sum T (fun t => f i t * g i t))) in *. set (FF := Sum n (fun i => Sum T (fun t => f i t ^ 2))) in *.
  set (GG := Sum n (fun i => Sum T (fun t => g i t ^ 2))) in *. apply Rmult_le_reg_l with (INR n ^ 2); [apply pow_lt; lra|].
  replace (INR n ^ 2 * (FG / INR n) ^ 2) with (FG ^ 2) by (field; lra). replace (INR n ^ 2 * (FF / INR n * (GG / INR n))) with (FF * GG) by (field; lra). auto.
Qed.
Lemma targets_gap_mt k n p T X Y Y' e1 e2 W V : (1 <= n)%nat -> penT_range k -> convexT k -> 0 <= e1 + e2 ->
  stationary_mt e1 (quad_loss_mt n T Y) p T X (penT k) W -> stationary_mt e2 (quad_loss_mt n T Y') p T X (penT k) V ->
  rms_mt n T (fun i t => lin_mt p X W i t - lin_mt p X V i t) <= rms_mt n T (fun i t => Y i t - Y' i t) + sqrt ((e1 + e2) * gap_mt p T W V) /\
  modulus_mt k * Sum p (fun j => Sum T (fun t => (W j t - V j t) ^ 2)) <= (e1 + e2) * gap_mt p T W V + rms_mt n T (fun i t => Y i t - Y' i t) ^ 2 / 4.
Proof.
  intros Hn Hr Hc He H1 H2. pose proof (agree2_mt k n p T X Y Y' e1 e2 W V Hn Hr Hc H1 H2) as H. rewrite quad_inner_mt in H by auto.
  rewrite <- (rms_mt_sq n T (fun i t => lin_mt p X W i t - lin_mt p X V i t)) in H by auto.
  pose proof (rms_mt_CS n T (fun i t => Y i t - Y' i t) (fun i t => lin_mt p X W i t - lin_mt p X V i t) Hn) as C. cbv beta in C.
  apply stab_arith; try apply rms_mt_nonneg; [apply Rmult_le_pos; [lra|apply gap_mt_nonneg]|apply Rmult_le_pos; [apply modulus_mt_nonneg; auto|apply Sum_nonneg; intros; apply Sum_nonneg; intros; apply pow2_ge_0]|lra].
Qed.
Lemma targets_fits_mt srt srt' (VS : valid_sort xops srt) (VS' : valid_sort xops srt') n p T X Y Y' a s s' fit fit' t1 t2 : (1 <= n)%nat -> 0 < a ->
  multi_fit srt n p T X Y (MtLassoPen a) s fit -> multi_fit srt' n p T X Y' (MtLassoPen a) s' fit' -> accepted fit -> accepted fit' ->
  patient p T s t1 -> patient p T s' t2 ->
  let L0 := fun Y : rmat => Sum n (fun i => Sum T (fun t => Y i t ^ 2)) / (2 * INR n) in
  exists N W V, (forall m, (N <= m)%nat -> fit m = Ret (Ok (xm p T W)) /\ fit' m = Ret (Ok (xm p T V))) /\
    rms_mt n T (fun i t => lin_mt p X W i t - lin_mt p X V i t) <= rms_mt n T (fun i t => Y i t - Y' i t) + sqrt ((t1 + t2) * ((L0 Y + L0 Y') / a)).
Proof.
  intros Hn Ha HF HF' Hacc Hacc' (Et & Ht & A1 & A2 & A3 & A4) (Et' & Ht' & B1 & B2 & B3 & B4) L0.
  destruct (c27_multi srt VS n p Hn T X Y a s fit HF t1 Hacc Et Ht A1 A2 A3 A4) as (N & W & HW & Hall).
  destruct (c27_multi srt' VS' n p Hn T X Y' a s' fit' HF' t2 Hacc' Et' Ht' B1 B2 B3 B4) as (N' & V & HV & Hall').
  exists (Nat.max N N'), W, V. split; [intros m Hm; split; [apply Hall|apply Hall']; lia|].
  destruct (fit_size_mt srt VS n p T X Y _ s fit a N W Hn HF eq_refl Ha (Hall N (le_n _))) as [R1 S1].
  destruct (fit_size_mt srt' VS' n p T X Y' _ s' fit' a N' V Hn HF' eq_refl Ha (Hall' N' (le_n _))) as [_ S2].
  destruct (targets_gap_mt (MtLassoPen a) n p T X Y Y' t1 t2 W V Hn R1 I ltac:(lra) HW HV) as [G _].
  apply Rle_trans with (1 := G). apply Rplus_le_compat_l, sqrt_le_1_alt, Rmult_le_compat_l; [lra|].
  replace ((L0 Y + L0 Y') / a) with (L0 Y / a + L0 Y' / a) by (field; lra). apply gap_bound_mt; auto.
Qed.

(** *** column order *)
Section Order.
Variables (n p T : nat) (sg : nat -> nat).
Hypotheses (Hn : (1 <= n)%nat) (Hsg : col_perm p sg).
Lemma lin_perm X w i : lin p (fun i j => X i (sg j)) (fun j => w (sg j)) i = lin p X w i.
Proof. exact (Sum_reorder p sg (fun j => X i j * w j) Hsg). Qed.
Lemma lin_mt_perm X W i t : lin_mt p (fun i j => X i (sg j)) (fun j => W (sg j)) i t = lin_mt p X W i t.
Proof. exact (Sum_reorder p sg (fun j => X i j * W j t) Hsg). Qed.
Lemma stationary_perm l k X y w eps : pen1_range k -> stationary eps (loss1 l n y) p X (pen1 k) w ->
  stationary eps (loss1 l n y) p (fun i j => X i (sg j)) (pen1 k) (fun j => w (sg j)).
Proof.
  intros Hr H. rewrite stationary_iff in H |- * by auto. intros j Hj. specialize (H (sg j) (row_perm_lt p sg j Hsg Hj)).
  replace (dloss1 n p l (fun i j0 => X i (sg j0)) y (fun j0 => w (sg j0)) j) with (dloss1 n p l X y w (sg j)); auto.
  destruct l; cbn [dloss1]; unfold gq, gl; repeat (f_equal; try (apply Sum_ext; intros; rewrite lin_perm; auto)).
Qed.
Lemma stationary_mt_perm k X Y W eps : stationary_mt eps (quad_loss_mt n T Y) p T X (penT k) W ->
  stationary_mt eps (quad_loss_mt n T Y) p T (fun i j => X i (sg j)) (penT k) (fun j => W (sg j)).
Proof.
  intros H j Hj. pose proof (row_perm_lt p sg j Hsg Hj) as Hj'. destruct (H (sg j) Hj') as (d & (g & Dg & Hd) & Hle). exists d. split; auto. exists g. split; auto.
  intros t Ht. replace (g t) with (gq n (fun i j0 => X i (sg j0)) Y (lin_mt p (fun i j0 => X i (sg j0)) (fun j0 => W (sg j0))) j t).
  - exact (quad_mt_deriv n T p (fun i j => X i (sg j)) Y (fun j => W (sg j)) j t Hn Hj Ht).
  - transitivity (gq n X Y (lin_mt p X W) (sg j) t); [|exact (uniqueness_limite _ _ _ _ (quad_mt_deriv n T p X Y W (sg j) t Hn Hj' Ht) (Dg t Ht))].
    unfold gq. repeat (f_equal; try (apply Sum_ext; intros; rewrite lin_mt_perm; auto)).
Qed.
End Order.
Lemma order_fits srt srt' (VS : valid_sort xops srt) (VS' : valid_sort xops srt') n p X y l k s s' fit fit' sg t1 t2 c : (1 <= n)%nat -> col_perm p sg -> targets_ok l n y ->
  single_fit srt n p X y l k s fit -> single_fit srt' n p (fun i j => X i (sg j)) y l k s' fit' -> accepted fit -> accepted fit' ->
  patient p 1 s t1 -> patient p 1 s' t2 -> l1_weight k c -> 0 < c ->
  exists N w v, (forall m, (N <= m)%nat -> fit m = Ret (Ok (xv p w)) /\ fit' m = Ret (Ok (xv p v))) /\
    (l = Squared -> Sum n (fun i => (lin p X w i - lin p (fun i j => X i (sg j)) v i) ^ 2) / INR n <= (t1 + t2) * (2 * loss1 l n y (fun _ => 0) / c)) /\
    (forall a r, k = EnetPen a r -> r < 1 -> Sum p (fun j => (w (sg j) - v j) ^ 2) <= INR p * ((t1 + t2) / (a * (1 - r))) ^ 2).
Proof.
  intros Hn Hsg Hy HF HF' Hacc Hacc' (Et & Ht & A1 & A2 & A3 & A4) (Et' & Ht' & B1 & B2 & B3 & B4) Hw Hc. rewrite Nat.mul_1_r in A4, B4.
  assert (Hcx : convex1 k) by (clear - Hw; destruct k; cbn in *; tauto).
  assert (HS : forall cmp X, steps_ok cmp k l n p X) by (clear - Hcx; intros; destruct k; cbn in *; tauto).
  destruct (c27_single srt VS n p Hn _ _ _ _ _ _ HF Hy (HS _ _) t1 Hacc Et Ht A1 A2 A3 A4) as (N & w & Hsw & Hall).
  destruct (c27_single srt' VS' n p Hn _ _ _ _ _ _ HF' Hy (HS _ _) t2 Hacc' Et' Ht' B1 B2 B3 B4) as (N' & v & Hsv & Hall').
  exists (Nat.max N N'), w, v. split; [intros m Hm; split; [apply Hall|apply Hall']; lia|].
  destruct (fit_size srt VS n p X y l _ s fit c N w Hn HF Hy Hw Hc (Hall N (le_n _))) as [R1 S1].
  destruct (fit_size srt' VS' n p _ y l _ s' fit' c N' v Hn HF' Hy Hw Hc (Hall' N' (le_n _))) as [_ S2].
  pose proof (stationary_perm n p sg Hn Hsg l k X y w t1 R1 Hsw) as Hsw'. split.
  - intros ->. pose proof (agree Squared k n p (fun i j => X i (sg j)) y t1 t2 _ v Hn R1 Hcx Hsw' Hsv) as G. cbn [lossmono] in G.
    rewrite (Sum_ext n (fun i => (lin p (fun i0 j => X i0 (sg j)) (fun j => w (sg j)) i - lin p (fun i0 j => X i0 (sg j)) v i) ^ 2)
      (fun i => (lin p X w i - lin p (fun i0 j => X i0 (sg j)) v i) ^ 2)) in G by (intros; rewrite (lin_perm p sg Hsg); auto).
    assert (M : 0 <= modulus k * Sum p (fun j => (w (sg j) - v j) ^ 2)) by (apply Rmult_le_pos; [apply modulus_nonneg; auto|apply Sum_nonneg; intros; apply pow2_ge_0]).
    apply Rle_trans with ((t1 + t2) * gap p (fun j => w (sg j)) v); [unfold gap; lra|]. apply Rmult_le_compat_l; [lra|].
    replace (2 * loss1 Squared n y (fun _ => 0) / c) with (loss1 Squared n y (fun _ => 0) / c + loss1 Squared n y (fun _ => 0) / c) by (field; lra).
    apply gap_bound; auto. rewrite (Sum_reorder p sg (fun j => Rabs (w j)) Hsg). auto.
  - intros a r -> Hr. cbn in R1, Hw. assert (0 < a) by (destruct (Rle_lt_or_eq_dec 0 a) as [|<-]; [lra|auto|subst c; rewrite Rmult_0_l in Hc; lra]).
    apply (enet_agree l a r n p (fun i j => X i (sg j)) y t1 t2); auto; lra.
Qed.
Lemma order_fits_mt srt srt' (VS : valid_sort xops srt) (VS' : valid_sort xops srt') n p T X Y a s s' fit fit' sg t1 t2 : (1 <= n)%nat -> col_perm p sg -> 0 < a ->
  multi_fit srt n p T X Y (MtLassoPen a) s fit -> multi_fit srt' n p T (fun i j => X i (sg j)) Y (MtLassoPen a) s' fit' -> accepted fit -> accepted fit' ->
  patient p T s t1 -> patient p T s' t2 ->
  exists N W V, (forall m, (N <= m)%nat -> fit m = Ret (Ok (xm p T W)) /\ fit' m = Ret (Ok (xm p T V))) /\
    Sum n (fun i => Sum T (fun t => (lin_mt p X W i t - lin_mt p (fun i j => X i (sg j)) V i t) ^ 2)) / INR n <= (t1 + t2) * (Sum n (fun i => Sum T (fun t => Y i t ^ 2)) / INR n / a).
Proof.
  intros Hn Hsg Ha HF HF' Hacc Hacc' (Et & Ht & A1 & A2 & A3 & A4) (Et' & Ht' & B1 & B2 & B3 & B4).
  destruct (c27_multi srt VS n p Hn T X Y a s fit HF t1 Hacc Et Ht A1 A2 A3 A4) as (N & W & HW & Hall).
  destruct (c27_multi srt' VS' n p Hn T _ Y a s' fit' HF' t2 Hacc' Et' Ht' B1 B2 B3 B4) as (N' & V & HV & Hall').
  exists (Nat.max N N'), W, V. split; [intros m Hm; split; [apply Hall|apply Hall']; lia|].
  destruct (fit_size_mt srt VS n p T X Y _ s fit a N W Hn HF eq_refl Ha (Hall N (le_n _))) as [R1 S1].
  destruct (fit_size_mt srt' VS' n p T _ Y _ s' fit' a N' V Hn HF' eq_refl Ha (Hall' N' (le_n _))) as [_ S2].
  pose proof (agree_mt (MtLassoPen a) n p T _ Y t1 t2 _ V Hn R1 I (stationary_mt_perm n p T sg Hn Hsg (MtLassoPen a) X Y W t1 HW) HV) as G. cbn [modulus_mt] in G.
  rewrite (Sum_ext n (fun i => Sum T (fun t => (lin_mt p (fun i0 j => X i0 (sg j)) (fun j => W (sg j)) i t - lin_mt p (fun i0 j => X i0 (sg j)) V i t) ^ 2))
      (fun i => Sum T (fun t => (lin_mt p X W i t - lin_mt p (fun i0 j => X i0 (sg j)) V i t) ^ 2))) in G by (intros; apply Sum_ext; intros; rewrite (lin_mt_perm p sg Hsg); auto).
  apply Rle_trans with ((t1 + t2) * gap_mt p T (fun j => W (sg j)) V); [unfold gap_mt; lra|]. apply Rmult_le_compat_l; [lra|]. pose proof (INR_npos n Hn).
  set (L := Sum n (fun i => Sum T (fun t => Y i t ^ 2))) in *. replace (L / INR n / a) with (L / (2 * INR n) / a + L / (2 * INR n) / a) by (field; lra).
  apply gap_bound_mt; auto. rewrite (Sum_reorder p sg (fun j => norm2 (map (W j) (seq 0 T))) Hsg). auto.
Qed.
