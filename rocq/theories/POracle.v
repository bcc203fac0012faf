(** Recovery guarantees of Lasso fits. *)
From Coq Require Import List ZArith Bool Arith Reals Lra Lia Classical.
From Verif Require Import Ops Arr MUtils MDatasets MHyper MEstimators XR SpecPen VecR PBase RSum PProx SpecLin SpecData PDatafit PCalc PDataProps SpecSolve PLaws PSubdiff PDescent PConv PTheory SpecOpt PFitOpt PCert SpecOracle.
Import ListNotations.
Open Scope R_scope.

Lemma size_sum p S : size_of p S = Sum p (fun j => if S j then 1 else 0).
Proof.
  unfold size_of. induction p as [|p IH]; [rewrite Sum_0; reflexivity|]. rewrite Sum_S, <- IH, seq_S, filter_app, app_length, plus_INR. f_equal. cbn [Nat.add filter]. destruct (S p); reflexivity.
Qed.
Lemma sum_split p S f : Sum p f = sum_in p S f + sum_out p S f.
Proof. unfold sum_in, sum_out. rewrite <- Sum_plus. apply Sum_ext. intros j _. destruct (S j); ring. Qed.
Lemma lin_minus p X w b i : lin p X (fun j => w j - b j) i = lin p X w i - lin p X b i.
Proof. unfold lin. rewrite <- Sum_minus. apply Sum_ext. intros. ring. Qed.

(** the arithmetic shared by the two settings; [r]: size of the error per feature, [b]: how much the true coefficient is larger *)
Section Arith.
Variables (p : nat) (S : nat -> bool) (r b : nat -> R) (M a kappa : R).
Hypotheses (Hr : forall j, 0 <= r j) (HM : 0 <= M) (Ha : 0 < a) (Hk : 0 < kappa)
  (Hin : forall j, (j < p)%nat -> S j = true -> b j <= r j) (Hout : forall j, (j < p)%nat -> S j = false -> b j <= - r j)
  (Hb : M <= a / 2 * Sum p r + a * Sum p b) (HRE : sum_out p S r <= 3 * sum_in p S r -> kappa * sum_in p S (fun j => r j ^ 2) <= M).
Lemma fast_arith : kappa * M <= 9 / 4 * a ^ 2 * size_of p S /\ kappa * Sum p r <= 6 * a * size_of p S.
Proof.
  assert (Q : M <= 3 * a / 2 * sum_in p S r - a / 2 * sum_out p S r).
  { apply Rle_trans with (1 := Hb). apply Rle_trans with (a / 2 * Sum p r + a * (sum_in p S r - sum_out p S r)); [|rewrite (sum_split p S); right; field].
    apply Rplus_le_compat_l, Rmult_le_compat_l; [lra|]. unfold sum_in, sum_out. rewrite <- Sum_minus. apply Sum_le. intros j Hj. destruct (S j) eqn:Es; [specialize (Hin j Hj Es)|specialize (Hout j Hj Es)]; lra. }
  assert (C : sum_out p S r <= 3 * sum_in p S r) by nra. pose proof (HRE C) as R1.
  assert (R2 : sum_in p S r ^ 2 <= size_of p S * sum_in p S (fun j => r j ^ 2)).
  { rewrite size_sum. unfold sum_in. pose proof (Sum_CS p (fun j => if S j then 1 else 0) (fun j => if S j then r j else 0)) as Q'.
    rewrite (Sum_ext p _ (fun j => if S j then r j else 0)) in Q' by (intros; destruct (S i); ring).
    rewrite (Sum_ext p (fun i => (if S i then 1 else 0) ^ 2) (fun j => if S j then 1 else 0)) in Q' by (intros; destruct (S i); ring).
    rewrite (Sum_ext p (fun i => (if S i then r i else 0) ^ 2) (fun j => if S j then r j ^ 2 else 0)) in Q' by (intros; destruct (S i); ring). exact Q'. }
  assert (A0 : 0 <= sum_in p S r) by (apply Sum_nonneg; intros; destruct (S i); [auto|lra]).
  assert (B0 : 0 <= sum_out p S r) by (apply Sum_nonneg; intros; destruct (S i); [lra|auto]). assert (s0 : 0 <= size_of p S) by apply pos_INR.
  rewrite (sum_split p S r). set (s := size_of p S) in *. set (bb := sum_out p S r) in *. set (g := sum_in p S r) in *. set (D2 := sum_in p S (fun j => r j ^ 2)) in *.
  assert (Q' : M <= 3 * a / 2 * g) by nra.
  assert (R3 : kappa * g ^ 2 <= s * M) by (apply Rle_trans with (kappa * (s * D2)); [apply Rmult_le_compat_l; lra|replace (kappa * (s * D2)) with (s * (kappa * D2)) by ring; apply Rmult_le_compat_l; auto]).
  assert (R4 : kappa * g <= 3 * a / 2 * s).
  { destruct (Req_dec g 0) as [E|E]; [rewrite E, Rmult_0_r; apply Rmult_le_pos; lra|]. apply Rmult_le_reg_r with g; [lra|].
    apply Rle_trans with (s * M); [simpl in R3; lra|]. apply Rle_trans with (s * (3 * a / 2 * g)); [apply Rmult_le_compat_l; auto|lra]. }
  split.
  - apply Rle_trans with (kappa * (3 * a / 2 * g)); [apply Rmult_le_compat_l; lra|]. apply Rle_trans with (3 * a / 2 * (3 * a / 2 * s)); [|right; field].
    replace (kappa * (3 * a / 2 * g)) with (3 * a / 2 * (kappa * g)) by ring. apply Rmult_le_compat_l; lra.
  - apply Rle_trans with (kappa * (4 * g)); [apply Rmult_le_compat_l; lra|lra].
Qed.
End Arith.

Section Oracle.
Variables (n p : nat) (Hn : (1 <= n)%nat) (X : rmat) (y beta e : nat -> R) (a eps lam : R) (w : nat -> R).
Hypotheses (Ha : 0 <= a) (HG : generated n p X y beta e) (HL : noise_level n p X e lam)
  (Hst : stationary eps (loss1 Squared n y) p X (pen1 (LassoPen a)) w).
Let d j := w j - beta j.
Lemma basic_inequality : msp n p X d <= (lam + eps) * Sum p (fun j => Rabs (d j)) + a * Sum p (fun j => Rabs (beta j) - Rabs (w j)).
Proof.
  pose proof (INR_npos n Hn) as HN. set (G := fun j => dloss1 n p Squared X y w j).
  assert (HC := pen1_convex (LassoPen a) Ha I).
  assert (A : Sum p (fun j => G j * d j) <= eps * Sum p (fun j => Rabs (d j)) + a * Sum p (fun j => Rabs (beta j) - Rabs (w j))).
  { rewrite <- !Sum_scal, <- Sum_plus. apply Sum_le. intros j Hj. destruct (Hst j Hj) as (dd & (g & Dg & (_ & s & Hs & Ed)) & Hd).
    assert (g = G j) as -> by (eapply uniqueness_limite; [exact Dg|apply loss1_deriv; auto]).
    pose proof (subgrad_global _ _ _ HC Hs (beta j)) as Hg. cbn [pen1] in Hg. unfold abs_pen in Hg.
    assert (B : (- G j - s) * (beta j - w j) <= eps * Rabs (d j)).
    { apply Rle_trans with (1 := Rle_abs _). rewrite Rabs_mult, Ed, (Rabs_minus_sym (beta j)). apply Rmult_le_compat_r; [apply Rabs_pos|auto]. }
    unfold d in *. lra. }
  assert (E1 : Sum p (fun j => G j * d j) = Sum n (fun i => (lin p X d i - e i) * lin p X d i) / INR n).
  { unfold lin at 2. rewrite <- (Sum_div n). rewrite (Sum_ext n _ (fun i => Sum p (fun j => (lin p X d i - e i) / INR n * (X i j * d j)))) by (intros; rewrite Sum_scal; field; lra).
    rewrite Sum_swap. apply Sum_ext. intros j Hj. unfold G. cbn [dloss1]. unfold gq. rewrite <- Sum_minus, <- Sum_div, <- Sum_scal_r. apply Sum_ext. intros i Hi.
    unfold d at 2. rewrite lin_minus, (HG i Hi). field. lra. }
  assert (E2 : Sum n (fun i => e i * lin p X d i) / INR n <= lam * Sum p (fun j => Rabs (d j))).
  { unfold lin. rewrite <- Sum_div. rewrite (Sum_ext n _ (fun i => Sum p (fun j => d j * (X i j * e i) / INR n))) by (intros; rewrite Sum_div; f_equal; rewrite <- Sum_scal; apply Sum_ext; intros; ring).
    rewrite Sum_swap, <- Sum_scal. apply Sum_le. intros j Hj.
    replace (Sum n (fun i => d j * (X i j * e i) / INR n)) with (d j * (Sum n (fun i => X i j * e i) / INR n)) by (rewrite Sum_div, Sum_scal; field; lra).
    apply Rle_trans with (1 := Rle_abs _). rewrite Rabs_mult, Rmult_comm. apply Rmult_le_compat_r; [apply Rabs_pos|apply (proj2 HL); auto]. }
  unfold msp. rewrite (Sum_ext n (fun i => (lin p X d i - e i) * lin p X d i) (fun i => lin p X d i ^ 2 - e i * lin p X d i)) in E1 by (intros; ring).
  rewrite Sum_minus in E1. replace (Sum n (fun i => lin p X d i ^ 2) / INR n) with (Sum p (fun j => G j * d j) + Sum n (fun i => e i * lin p X d i) / INR n) by (rewrite E1; field; lra). lra.
Qed.
Lemma msp_nonneg : 0 <= msp n p X d.
Proof. apply Rmult_le_pos; [apply Sum_nonneg; intros; apply pow2_ge_0|left; apply Rinv_0_lt_compat, INR_npos; auto]. Qed.
Lemma slow_rate : lam + eps <= a -> msp n p X d <= 2 * a * Sum p (fun j => Rabs (beta j)).
Proof.
  intros Hle. apply Rle_trans with (1 := basic_inequality).
  apply Rle_trans with (a * Sum p (fun j => Rabs (d j)) + a * Sum p (fun j => Rabs (beta j) - Rabs (w j))).
  - apply Rplus_le_compat_r. apply Rmult_le_compat_r; auto. apply Sum_nonneg. intros. apply Rabs_pos.
  - rewrite <- Rmult_plus_distr_l, <- Sum_plus. replace (2 * a * Sum p (fun j => Rabs (beta j))) with (a * (2 * Sum p (fun j => Rabs (beta j)))) by ring. apply Rmult_le_compat_l; auto.
    rewrite <- Sum_scal. apply Sum_le. intros j _. unfold d. assert (Rabs (w j - beta j) <= Rabs (w j) + Rabs (beta j)) by (unfold Rminus; apply Rle_trans with (1 := Rabs_triang _ _); rewrite Rabs_Ropp; lra). lra.
Qed.
Variables (S : nat -> bool) (kappa : R).
Hypotheses (HS : support_in p S beta) (Ha0 : 0 < a) (Hle : lam + eps <= a / 2) (Hk : 0 < kappa) (HRE : restricted_eigenvalue n p X S kappa).
Lemma fast_rate : kappa * msp n p X d <= 9 / 4 * a ^ 2 * size_of p S /\ kappa * Sum p (fun j => Rabs (d j)) <= 6 * a * size_of p S /\
  forall j, (j < p)%nat -> 6 * a * size_of p S < kappa * Rabs (beta j) -> 0 < w j * beta j.
Proof.
  destruct (fast_arith p S (fun j => Rabs (d j)) (fun j => Rabs (beta j) - Rabs (w j)) (msp n p X d) a kappa) as [L0 L1]; auto.
  - intros. apply Rabs_pos.
  - apply msp_nonneg.
  - intros j _ _. pose proof (Rabs_triang_inv (beta j) (w j)) as Q. rewrite (Rabs_minus_sym (beta j)) in Q. exact Q.
  - intros j Hj Es. unfold d. rewrite (HS j Hj Es), Rabs_R0, Rminus_0_r. lra.
  - apply Rle_trans with (1 := basic_inequality). apply Rplus_le_compat_r, Rmult_le_compat_r; auto. apply Sum_nonneg. intros. apply Rabs_pos.
  - intros C. apply Rle_trans with (2 := HRE d C). right. f_equal. apply Sum_ext. intros j _. destruct (S j); [apply pow2_abs|reflexivity].
  - split; auto. split; auto. intros j Hj Hb. assert (Rabs (d j) < Rabs (beta j)).
    { apply Rmult_lt_reg_l with kappa; auto. apply Rle_lt_trans with (2 := Hb). apply Rle_trans with (2 := L1). apply Rmult_le_compat_l; [lra|]. apply (Sum_ge_term p (fun j => Rabs (d j))); auto. intros. apply Rabs_pos. }
    unfold d in H. unfold Rabs in H. destruct (Rcase_abs (w j - beta j)), (Rcase_abs (beta j)); nra.
Qed.
End Oracle.

Lemma lin_mt_minus p X W B i t : lin_mt p X (fun j t => W j t - B j t) i t = lin_mt p X W i t - lin_mt p X B i t.
Proof. unfold lin_mt. rewrite <- Sum_minus. apply Sum_ext. intros. ring. Qed.
Section OracleT.
Variables (n p T : nat) (Hn : (1 <= n)%nat) (X Y Be E : rmat) (a eps lam : R) (W : rmat).
Hypotheses (Ha : 0 < a) (HG : generated_mt n p T X Y Be E) (HL : noise_level_mt n p T X E lam)
  (Hst : stationary_mt eps (quad_loss_mt n T Y) p T X (penT (MtLassoPen a)) W).
Let d j t := W j t - Be j t.
Local Notation rown U j := (norm2 (map (U j) (seq 0 T))).
Lemma basic_inequality_mt : msp_mt n p T X d <= (lam + eps) * Sum p (fun j => rown d j) + a * Sum p (fun j => rown Be j - rown W j).
Proof.
  pose proof (INR_npos n Hn) as HN. pose (G := gq n X Y (lin_mt p X W)).
  assert (A : Sum p (fun j => Sum T (fun t => G j t * d j t)) <= eps * Sum p (fun j => rown d j) + a * Sum p (fun j => rown Be j - rown W j)).
  { rewrite <- !Sum_scal, <- Sum_plus. apply Sum_le. intros j Hj. destruct (Hst j Hj) as (dd & (g & Dg & (_ & s & Hs & Ed)) & Hd).
    assert (Eg : forall t, (t < T)%nat -> g t = G j t) by (intros t Ht; eapply uniqueness_limite; [apply Dg; auto|apply quad_mt_deriv; auto]).
    pose proof (proj1 Hs) as Hl. change (map (W j) (seq 0 T)) with (tab T (W j)) in Hs. pose proof (vsubgrad_global (MtLassoPen a) T _ _ Ha I Hs (Be j)) as Hg.
    cbn [penT] in Hg. unfold abs_pen in Hg. rewrite !(Rabs_pos_eq (norm2 _)) in Hg by apply norm2_pos.
    change (map (fun t => - g t) (seq 0 T)) with (tab T (fun t => - g t)) in Ed. rewrite (tab_nth_len T s 0 Hl), vminus_tab in Ed.
    rewrite (tab_ext T _ (fun t => - G j t - nth t s 0)) in Ed by (intros t Ht; rewrite Eg; auto).
    assert (B : Sum T (fun t => - (- G j t - nth t s 0) * d j t) <= eps * rown d j).
    { assert (CS := cauchy_schwarz (vscale (-1) (tab T (fun t => - G j t - nth t s 0))) (tab T (d j))).
      rewrite dotp_scale_l, norm2_scale, dotp_tab, Ed in CS. replace (Rabs (-1)) with 1 in CS by (rewrite Rabs_left; lra). rewrite <- Sum_scal in CS.
      rewrite (Sum_ext T _ (fun t => -1 * ((- G j t - nth t s 0) * d j t))) by (intros; ring). apply Rle_trans with (1 := CS). rewrite Rmult_1_l. apply Rmult_le_compat_r; [apply norm2_pos|auto]. }
    assert (Q : Sum T (fun t => G j t * d j t) = Sum T (fun t => - (- G j t - nth t s 0) * d j t) + Sum T (fun t => nth t s 0 * (Be j t - W j t))).
    { rewrite <- Sum_plus. apply Sum_ext. intros. unfold d. ring. }
    rewrite Q. unfold tab in Hg. lra. }
  assert (E1 : Sum p (fun j => Sum T (fun t => G j t * d j t)) = Sum n (fun i => Sum T (fun t => (lin_mt p X d i t - E i t) * lin_mt p X d i t)) / INR n).
  { rewrite (Sum_swap p T), (Sum_swap n T), <- Sum_div. apply Sum_ext. intros t Ht. unfold lin_mt at 2. rewrite <- (Sum_div n).
    rewrite (Sum_ext n _ (fun i => Sum p (fun j => (lin_mt p X d i t - E i t) / INR n * (X i j * d j t)))) by (intros; rewrite Sum_scal; field; lra).
    rewrite Sum_swap. apply Sum_ext. intros j Hj. unfold G, gq. rewrite <- Sum_minus, <- Sum_div, <- Sum_scal_r. apply Sum_ext. intros i Hi.
    unfold d at 2. rewrite lin_mt_minus, (HG i t Hi Ht). field. lra. }
  assert (E2 : Sum n (fun i => Sum T (fun t => E i t * lin_mt p X d i t)) / INR n <= lam * Sum p (fun j => rown d j)).
  { apply Rle_trans with (Sum p (fun j => Sum T (fun t => (Sum n (fun i => X i j * E i t) / INR n) * d j t))).
    - right. rewrite (Sum_swap p T), (Sum_swap n T), <- Sum_div. apply Sum_ext. intros t Ht. unfold lin_mt. rewrite <- (Sum_div n).
      rewrite (Sum_ext n _ (fun i => Sum p (fun j => d j t * (X i j * E i t) / INR n))) by (intros; rewrite Sum_div; f_equal; rewrite <- Sum_scal; apply Sum_ext; intros; ring).
      rewrite Sum_swap. apply Sum_ext. intros j Hj. rewrite Sum_div, Sum_scal. field. lra.
    - rewrite <- Sum_scal. apply Sum_le. intros j Hj. rewrite <- dotp_tab. apply Rle_trans with (1 := cauchy_schwarz _ _). apply Rmult_le_compat_r; [apply norm2_pos|apply (proj2 HL); auto]. }
  unfold msp_mt. replace (Sum n (fun i => Sum T (fun t => lin_mt p X d i t ^ 2)) / INR n) with (Sum p (fun j => Sum T (fun t => G j t * d j t)) + Sum n (fun i => Sum T (fun t => E i t * lin_mt p X d i t)) / INR n); [lra|].
  rewrite E1, <- !Sum_div, <- Sum_plus. apply Sum_ext. intros i Hi. rewrite <- !Sum_div, <- Sum_plus. apply Sum_ext. intros. field. lra.
Qed.
Lemma msp_mt_nonneg : 0 <= msp_mt n p T X d.
Proof. apply Rmult_le_pos; [apply Sum_nonneg; intros; apply Sum_nonneg; intros; apply pow2_ge_0|left; apply Rinv_0_lt_compat, INR_npos; auto]. Qed.
Lemma row_tri j : rown Be j - rown W j <= rown d j /\ rown d j <= rown W j + rown Be j.
Proof.
  assert (L : forall f : nat -> R, length (tab T f) = T) by (intros; apply tab_length).
  assert (Z : forall f, norm2 (vminus (tab T f) (tab T (fun _ => 0))) = norm2 (tab T f)) by (intros f; rewrite vminus_tab; f_equal; apply tab_ext; intros; ring).
  assert (Ed : norm2 (vminus (tab T (W j)) (tab T (Be j))) = rown d j) by (rewrite vminus_tab; reflexivity).
  split.
  - assert (Q := norm2_triang3 (tab T (Be j)) (tab T (W j)) (tab T (fun _ => 0)) ltac:(rewrite !L; auto) ltac:(rewrite !L; auto)).
    rewrite (norm2_minus_sym (tab T (Be j)) (tab T (W j))), !Z, Ed in Q by (rewrite !L; auto). unfold tab in Q. lra.
  - assert (Q := norm2_triang3 (tab T (W j)) (tab T (fun _ => 0)) (tab T (Be j)) ltac:(rewrite !L; auto) ltac:(rewrite !L; auto)).
    rewrite (norm2_minus_sym (tab T (fun _ => 0)) (tab T (Be j))), !Z, Ed in Q by (rewrite !L; auto). exact Q.
Qed.
Lemma slow_rate_mt : lam + eps <= a -> msp_mt n p T X d <= 2 * a * Sum p (fun j => rown Be j).
Proof.
  intros Hle. apply Rle_trans with (1 := basic_inequality_mt).
  apply Rle_trans with (a * Sum p (fun j => rown d j) + a * Sum p (fun j => rown Be j - rown W j)).
  - apply Rplus_le_compat_r. apply Rmult_le_compat_r; auto. apply Sum_nonneg. intros. apply norm2_pos.
  - rewrite <- Rmult_plus_distr_l, <- Sum_plus. replace (2 * a * Sum p (fun j => rown Be j)) with (a * (2 * Sum p (fun j => rown Be j))) by ring. apply Rmult_le_compat_l; [lra|].
    rewrite <- Sum_scal. apply Sum_le. intros j _. pose proof (row_tri j). lra.
Qed.
Variables (S : nat -> bool) (kappa : R).
Hypotheses (HS : support_in_mt p T S Be) (Hle : lam + eps <= a / 2) (Hk : 0 < kappa) (HRE : restricted_eigenvalue_mt n p T X S kappa).
Lemma fast_rate_mt : kappa * msp_mt n p T X d <= 9 / 4 * a ^ 2 * size_of p S /\ kappa * Sum p (fun j => rown d j) <= 6 * a * size_of p S /\
  forall j, (j < p)%nat -> 6 * a * size_of p S < kappa * rown Be j -> exists t, (t < T)%nat /\ W j t <> 0.
Proof.
  destruct (fast_arith p S (fun j => rown d j) (fun j => rown Be j - rown W j) (msp_mt n p T X d) a kappa) as [L0 L1]; auto.
  - intros. apply norm2_pos.
  - apply msp_mt_nonneg.
  - intros j _ _. apply row_tri.
  - intros j Hj Es. assert (E1 : map (Be j) (seq 0 T) = map (fun _ => 0) (seq 0 T)) by (apply (tab_ext T); intros t Ht; apply HS; auto).
    assert (E2 : map (d j) (seq 0 T) = map (W j) (seq 0 T)) by (apply (tab_ext T); intros t Ht; unfold d; rewrite (HS j t Hj Ht Es); ring).
    rewrite E1, E2. replace (norm2 (map (fun _ => 0) (seq 0 T))) with 0 by (symmetry; change (norm2 (tab T (fun _ => 0)) = 0); rewrite tab_zero by auto; apply norm2_0). lra.
  - apply Rle_trans with (1 := basic_inequality_mt). apply Rplus_le_compat_r, Rmult_le_compat_r; auto. apply Sum_nonneg. intros. apply norm2_pos.
  - split; auto. split; auto. intros j Hj Hb. apply NNPP. intros Hno.
    assert (E2 : rown W j = 0) by (replace (map (W j) (seq 0 T)) with (map (fun _ : nat => 0) (seq 0 T)); [change (norm2 (tab T (fun _ => 0)) = 0); rewrite tab_zero by auto; apply norm2_0|apply (tab_ext T); intros t Ht; symmetry; apply NNPP; intros H; apply Hno; exists t; auto]).
    pose proof (row_tri j) as [R1 _]. rewrite E2, Rminus_0_r in R1.
    assert (kappa * rown Be j <= 6 * a * size_of p S); [|lra]. apply Rle_trans with (2 := L1). apply Rmult_le_compat_l; [lra|]. apply Rle_trans with (1 := R1). apply (Sum_ge_term p (fun j => rown d j)); auto. intros. apply norm2_pos.
Qed.
End OracleT.

(** *** results of fits *)
Section Fits.
Context (srt : list xr -> list nat) (VS : valid_sort xops srt) (n p : nat) (Hn : (1 <= n)%nat).
Lemma c99_single X y beta e a s fit tol lam : single_fit srt n p X y Squared (LassoPen a) s fit -> accepted fit -> s_tolerance s = Fin tol -> 0 < tol ->
  (1 <= s_ws_start_size s)%nat -> (1 <= s_max_epochs s)%nat ->
  calm_schedule (s_use_acceleration s) (s_K s) (s_max_epochs s) -> accel_safe (s_use_acceleration s) (s_K s) (Nat.min (s_ws_start_size s) p) (s_max_epochs s) ->
  generated n p X y beta e -> noise_level n p X e lam ->
  settles p (fun w => let d j := w j - beta j in
    (lam + tol <= a -> msp n p X d <= 2 * a * Sum p (fun j => Rabs (beta j))) /\
    forall S kappa, support_in p S beta -> 0 < kappa -> restricted_eigenvalue n p X S kappa -> lam + tol <= a / 2 ->
      kappa * msp n p X d <= 9 / 4 * a ^ 2 * size_of p S /\ kappa * Sum p (fun j => Rabs (d j)) <= 6 * a * size_of p S /\
      forall j, (j < p)%nat -> 6 * a * size_of p S < kappa * Rabs (beta j) -> 0 < w j * beta j) fit.
Proof.
  intros HF Ha Et Ht H1 H2 H3 H4 HG HL.
  destruct (c27_single srt VS n p Hn X y _ _ s fit HF I I tol Ha Et Ht H1 H2 H3 H4) as (N & w & Hst & Hall). exists N, w. split; auto.
  destruct (inv1 srt VS n p Hn X y _ _ s fit HF I I N _ (Hall N (le_n N))) as (Hr & _). cbn [pen1_range] in Hr. split.
  - intros. exact (slow_rate n p Hn X y beta e a tol lam w ltac:(pose proof (proj1 HL); lra) HG HL Hst H).
  - intros S kappa HS Hk HRE Hle. exact (fast_rate n p Hn X y beta e a tol lam w Hr HG HL Hst S kappa HS ltac:(pose proof (proj1 HL); lra) Hle Hk HRE).
Qed.
Lemma c99_multi T X Y Be E a s fit tol lam : multi_fit srt n p T X Y (MtLassoPen a) s fit -> accepted fit -> s_tolerance s = Fin tol -> 0 < tol ->
  (1 <= s_ws_start_size s)%nat -> (1 <= s_max_epochs s)%nat ->
  calm_schedule (s_use_acceleration s) (s_K s) (s_max_epochs s) -> accel_safe (s_use_acceleration s) (s_K s) (Nat.min (s_ws_start_size s) p * T) (s_max_epochs s) ->
  generated_mt n p T X Y Be E -> noise_level_mt n p T X E lam ->
  let size (U : rmat) j := norm2 (map (U j) (seq 0 T)) in
  settles_mt p T (fun W => let d j t := W j t - Be j t in
    (lam + tol <= a -> msp_mt n p T X d <= 2 * a * Sum p (size Be)) /\
    forall S kappa, support_in_mt p T S Be -> 0 < kappa -> restricted_eigenvalue_mt n p T X S kappa -> lam + tol <= a / 2 ->
      kappa * msp_mt n p T X d <= 9 / 4 * a ^ 2 * size_of p S /\ kappa * Sum p (size d) <= 6 * a * size_of p S /\
      forall j, (j < p)%nat -> 6 * a * size_of p S < kappa * size Be j -> exists t, (t < T)%nat /\ W j t <> 0) fit.
Proof.
  intros HF Ha Et Ht H1 H2 H3 H4 HG HL size.
  destruct (c27_multi srt VS n p Hn T X Y a s fit HF tol Ha Et Ht H1 H2 H3 H4) as (N & W & Hst & Hall). exists N, W. split; auto.
  pose proof (proj1 (multi_run srt VS n p Hn T X Y _ s fit HF)) as Hr. cbn [penT_range] in Hr. split.
  - intros. eapply slow_rate_mt; eauto; lra.
  - intros. eapply fast_rate_mt; eauto; lra.
Qed.
End Fits.
