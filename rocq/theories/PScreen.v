(** Correlations of the features with the residuals of converged models. *)
From Coq Require Import List ZArith Bool Arith Reals Lra Lia.
From Verif Require Import Ops Arr MUtils MDatasets MHyper MEstimators XR SpecPen VecR PBase RSum PProx SpecLin SpecData PDatafit PCalc PDataProps SpecSolve PLaws PSubdiff PDescent PConv PTheory SpecOpt PFitOpt PCert PStrict SpecNull PNullFit PMore SpecSym PSym SpecPath PPath PStab.
Import ListNotations.
Open Scope R_scope.

Lemma corr_grad l n p X y w j : (1 <= n)%nat -> correlation l n p X y w j = - dloss1 n p l X y w j.
Proof.
  intros Hn. pose proof (INR_npos n Hn) as HN. destruct l; cbn [correlation dloss1].
  - unfold gq. rewrite (Sum_ext n _ (fun i => X i j * y i - X i j * lin p X w i)) by (intros; ring). rewrite Sum_minus. field. lra.
  - unfold gl. replace (- (- Sum n (fun i => X i j * (y i * sig (- y i * lin p X w i))) / INR n)) with (Sum n (fun i => X i j * (y i * sig (- y i * lin p X w i))) / INR n) by (field; lra).
    f_equal. apply Sum_ext. intros i _. unfold sig. replace (- (- y i * lin p X w i)) with (y i * lin p X w i) by ring. field. pose proof (exp_pos (y i * lin p X w i)). lra.
Qed.
Lemma corr_read l k n p X y w t c b j : (1 <= n)%nat -> pen1_range k -> l1_weight k c -> l2_weight k b -> (j < p)%nat -> stationary t (loss1 l n y) p X (pen1 k) w ->
  (w j = 0 -> Rabs (correlation l n p X y w j) <= c + t) /\ (w j <> 0 -> Rabs (correlation l n p X y w j - (c * (w j / Rabs (w j)) + b * w j)) <= t).
Proof.
  intros Hn Hr Hc Hb Hj H. rewrite stationary_iff in H by auto. specialize (H j Hj). rewrite corr_grad by auto. set (G := dloss1 n p l X y w j) in *.
  assert (S : w j <> 0 -> w j / Rabs (w j) = rsign (w j)).
  { intros Hw. unfold rsign. destruct (Rltb (w j) 0) eqn:E; [apply Rltb_spec in E; rewrite Rabs_left by lra|apply Rltb_false in E; rewrite Rabs_right by lra]; field; auto. }
  destruct k as [a|a r|]; cbn in Hc, Hb, H; [| |contradiction]; subst.
  - unfold r_l1_score in H. split; intros Hw.
    + rewrite Hw, Reqb_refl in H. rewrite Rabs_Ropp. pose proof (Rmax_r 0 (Rabs G - a)). lra.
    + rewrite (proj2 (Reqb_false _ _) Hw) in H. rewrite S by auto. replace (- G - (a * rsign (w j) + 0 * w j)) with (- G - rsign (w j) * a) by ring. auto.
  - unfold r_l1l2_score in H. split; intros Hw.
    + rewrite Hw, Reqb_refl in H. rewrite Rabs_Ropp. pose proof (Rmax_r 0 (Rabs G - a * r)). lra.
    + rewrite (proj2 (Reqb_false _ _) Hw) in H. rewrite S by auto. replace (- G - (a * r * rsign (w j) + a * (1 - r) * w j)) with (- G - a * (rsign (w j) * r + (1 - r) * w j)) by ring. auto.
Qed.

(** a selected feature has a correlation of at least the weight, up to the tolerance *)
Lemma selected_corr l k n p X y w t c j : (1 <= n)%nat -> pen1_range k -> convex1 k -> l1_weight k c -> (j < p)%nat -> stationary t (loss1 l n y) p X (pen1 k) w ->
  w j <> 0 -> c - t <= Rabs (correlation l n p X y w j).
Proof.
  intros Hn Hr Hc Hw Hj H Hne. rewrite corr_grad by auto. destruct (H j Hj) as (d & (g & Dg & (_ & s & Hs & Ed)) & Hd).
  assert (g = dloss1 n p l X y w j) as -> by (eapply uniqueness_limite; [exact Dg|apply loss1_deriv; auto]). set (G := dloss1 n p l X y w j) in *.
  pose proof (strong_grad _ _ _ _ (modulus_nonneg k Hr) (pen1_strong k Hr Hc) Hs 0) as Q. pose proof (pen1_l1 k c (w j) Hr Hw) as L.
  assert (Z : pen1 k 0 = 0) by (destruct k; cbn in *; unfold abs_pen, enet_pen; rewrite ?Rabs_R0; [ring|ring|contradiction]). rewrite Z in Q.
  assert (M : 0 <= modulus k / 2 * (0 - w j) ^ 2) by (apply Rmult_le_pos; [pose proof (modulus_nonneg k Hr); lra|apply pow2_ge_0]).
  assert (A : c * Rabs (w j) <= Rabs s * Rabs (w j)) by (rewrite <- Rabs_mult; apply Rle_trans with (s * w j); [lra|apply Rle_abs]).
  apply Rmult_le_reg_r in A; [|apply Rabs_pos_lt; auto].
  pose proof (Rabs_triang (- G) (- (- G - s))) as T. replace (- G + - (- G - s)) with s in T by ring. rewrite (Rabs_Ropp (- G - s)), Ed in T. lra.
Qed.
Lemma corr_close n p X y w v j : (1 <= n)%nat -> Rabs (correlation Squared n p X y w j) <= Rabs (correlation Squared n p X y v j) + rms n (fun i => X i j) * rms n (fun i => lin p X w i - lin p X v i).
Proof.
  intros Hn. pose proof (INR_npos n Hn) as HN. cbn [correlation].
  set (A := Sum n (fun i => X i j * (y i - lin p X w i)) / INR n). set (B := Sum n (fun i => X i j * (y i - lin p X v i)) / INR n).
  assert (E : B - A = Sum n (fun i => X i j * (lin p X w i - lin p X v i)) / INR n).
  { unfold A, B, Rdiv. rewrite <- Rmult_minus_distr_r, <- Sum_minus. f_equal. apply Sum_ext. intros. ring. }
  pose proof (rms_CS n (fun i => X i j) (fun i => lin p X w i - lin p X v i) Hn) as C1. cbv beta in C1. rewrite <- E in C1.
  pose proof (rms_CS n (fun i => - X i j) (fun i => lin p X w i - lin p X v i) Hn) as C2. cbv beta in C2.
  rewrite (Sum_ext n (fun i => - X i j * _) (fun i => - (X i j * (lin p X w i - lin p X v i)))), Sum_opp in C2 by (intros; ring).
  assert (R : rms n (fun i => - X i j) = rms n (fun i => X i j)) by (unfold rms; do 2 f_equal; apply Sum_ext; intros; ring). rewrite R in C2.
  replace (- Sum n (fun i => X i j * (lin p X w i - lin p X v i)) / INR n) with (- (B - A)) in C2 by (rewrite E; field; lra).
  assert (Rabs (A - B) <= rms n (fun i => X i j) * rms n (fun i => lin p X w i - lin p X v i)) by (apply Rabs_le; lra).
  pose proof (Rabs_triang B (A - B)) as T. replace (B + (A - B)) with A in T by ring. lra.
Qed.
(** a feature whose correlation in some exact solution is below the weight by a margin is exactly zero in converged models *)
Lemma screened k n p X y w v t c j : (1 <= n)%nat -> pen1_range k -> convex1 k -> l1_weight k c -> 0 <= t -> (j < p)%nat ->
  stationary t (quad_loss n y) p X (pen1 k) w -> stationary 0 (quad_loss n y) p X (pen1 k) v ->
  Rabs (correlation Squared n p X y v j) + rms n (fun i => X i j) * sqrt (t * gap p w v) + t < c -> w j = 0.
Proof.
  intros Hn Hr Hc Hw Ht Hj H1 H2 HM. destruct (Req_dec (w j) 0) as [|Hne]; auto. exfalso.
  pose proof (selected_corr Squared k n p X y w t c j Hn Hr Hc Hw Hj H1 Hne) as A. pose proof (corr_close n p X y w v j Hn) as B.
  destruct (targets_gap k n p X y y t 0 w v Hn Hr Hc ltac:(lra) H1 H2) as [G _]. rewrite Rplus_0_r in G.
  assert (Z : rms n (fun i => y i - y i) = 0). { unfold rms. rewrite Sum_zero by (intros; ring). unfold Rdiv. rewrite Rmult_0_l. apply sqrt_0. }
  rewrite Z, Rplus_0_l in G. assert (rms n (fun i => X i j) * rms n (fun i => lin p X w i - lin p X v i) <= rms n (fun i => X i j) * sqrt (t * gap p w v)) by (apply Rmult_le_compat_l; [apply rms_nonneg|auto]). lra.
Qed.
Lemma read_fit srt (VS : valid_sort xops srt) n p X y l k s fit t c b : (1 <= n)%nat -> targets_ok l n y -> single_fit srt n p X y l k s fit -> accepted fit -> patient p 1 s t ->
  l1_weight k c -> 0 < c -> l2_weight k b ->
  settles p (fun w => forall j, (j < p)%nat -> (w j = 0 -> Rabs (correlation l n p X y w j) <= c + t) /\ (w j <> 0 -> Rabs (correlation l n p X y w j - (c * (w j / Rabs (w j)) + b * w j)) <= t)) fit.
Proof.
  intros Hn Hy HF Hacc (Et & Ht & A1 & A2 & A3 & A4) Hw Hc Hb. rewrite Nat.mul_1_r in A4.
  assert (Hcx : convex1 k) by (clear - Hw; destruct k; cbn in *; tauto).
  assert (HS : forall cmp, steps_ok cmp k l n p X) by (clear - Hcx; intros; destruct k; cbn in *; tauto).
  destruct (c27_single srt VS n p Hn _ _ _ _ _ _ HF Hy (HS _) t Hacc Et Ht A1 A2 A3 A4) as (N & w & Hsw & Hall).
  exists N, w. split; auto. intros j Hj. destruct (fit_size srt VS n p X y l _ s fit c N w Hn HF Hy Hw Hc (Hall N (le_n _))) as [R1 _].
  apply (corr_read l k); auto.
Qed.
Lemma screen_fit srt (VS : valid_sort xops srt) n p X y k s fit t c v : (1 <= n)%nat -> single_fit srt n p X y Squared k s fit -> accepted fit -> patient p 1 s t ->
  l1_weight k c -> 0 < c -> stationary 0 (quad_loss n y) p X (pen1 k) v ->
  settles p (fun w => forall j, (j < p)%nat ->
    Rabs (correlation Squared n p X y v j) + rms n (fun i => X i j) * sqrt (t * (quad_loss n y (fun _ => 0) / c + Sum p (fun j => Rabs (v j)))) + t < c -> w j = 0) fit.
Proof.
  intros Hn HF Hacc (Et & Ht & A1 & A2 & A3 & A4) Hw Hc Hv. rewrite Nat.mul_1_r in A4.
  assert (Hcx : convex1 k) by (clear - Hw; destruct k; cbn in *; tauto).
  assert (HS : forall cmp, steps_ok cmp k Squared n p X) by (clear - Hcx; intros; destruct k; cbn in *; tauto).
  destruct (c27_single srt VS n p Hn _ _ _ _ _ _ HF I (HS _) t Hacc Et Ht A1 A2 A3 A4) as (N & w & Hsw & Hall).
  exists N, w. split; auto. intros j Hj HM. destruct (fit_size srt VS n p X y Squared _ s fit c N w Hn HF I Hw Hc (Hall N (le_n _))) as [R1 S1].
  apply (screened k n p X y w v t c j); auto; [lra|].
  assert (rms n (fun i => X i j) * sqrt (t * gap p w v) <= rms n (fun i => X i j) * sqrt (t * (quad_loss n y (fun _ => 0) / c + Sum p (fun j => Rabs (v j))))); [|lra].
  apply Rmult_le_compat_l; [apply rms_nonneg|]. apply sqrt_le_1_alt, Rmult_le_compat_l; [lra|]. apply gap_bound; [auto|lra].
Qed.

(** *** several tasks *)
Lemma corr_grad_mt n p T X Y W j : (1 <= n)%nat -> correlation_mt n p T X Y W j = tab T (fun t => - gq n X Y (lin_mt p X W) j t).
Proof.
  intros Hn. pose proof (INR_npos n Hn) as HN. apply tab_ext. intros t _. unfold gq.
  rewrite (Sum_ext n _ (fun i => X i j * Y i t - X i j * lin_mt p X W i t)) by (intros; ring). rewrite Sum_minus. field. lra.
Qed.
Lemma selected_corr_mt k n p T X Y W t c j : (1 <= n)%nat -> penT_range k -> convexT k -> l1_weight_mt k c -> (j < p)%nat -> stationary_mt t (quad_loss_mt n T Y) p T X (penT k) W ->
  (exists u, (u < T)%nat /\ W j u <> 0) -> c - t <= norm2 (correlation_mt n p T X Y W j).
Proof.
  intros Hn Hr Hc Hw Hj H (u & Hu & Hne). rewrite corr_grad_mt by auto. destruct (H j Hj) as (d & (g & Dg & (_ & s & Hs & Ed)) & Hd).
  set (G := gq n X Y (lin_mt p X W)) in *.
  assert (Eg : forall t, (t < T)%nat -> g t = G j t) by (intros t0 Ht; eapply uniqueness_limite; [apply Dg; auto|apply quad_mt_deriv; auto]).
  pose proof (proj1 Hs) as Hl. change (map (W j) (seq 0 T)) with (tab T (W j)) in Hs.
  pose proof (vstrong_grad k T _ _ Hr Hc Hs (fun _ => 0)) as Q. pose proof (penT_l1 k c (tab T (W j)) Hr Hw) as L.
  assert (N0 : norm2 (tab T (fun _ => 0)) = 0). { apply Rsqr_0_uniq. unfold Rsqr. pose proof (norm2_tab T (fun _ => 0)) as Q0. rewrite Sum_zero in Q0 by (intros; ring). lra. }
  assert (Z : penT k (tab T (fun _ => 0)) = 0) by (destruct k; cbn in *; unfold abs_pen, enet_pen; rewrite N0, ?Rabs_R0; [ring|ring|contradiction]). rewrite Z in Q.
  assert (M : 0 <= modulus_mt k / 2 * Sum T (fun t => (0 - W j t) ^ 2)) by (apply Rmult_le_pos; [pose proof (modulus_mt_nonneg k Hr); lra|apply Sum_nonneg; intros; apply pow2_ge_0]).
  rewrite (Sum_ext T (fun t => nth t s 0 * (0 - W j t)) (fun t => - (nth t s 0 * W j t))), Sum_opp in Q by (intros; ring).
  pose proof (cauchy_schwarz (tab T (fun t => nth t s 0)) (tab T (W j))) as CS. rewrite dotp_tab in CS.
  assert (P : 0 < norm2 (tab T (W j))).
  { destruct (Rle_lt_or_eq_dec _ _ (norm2_pos (tab T (W j)))) as [|E]; auto. exfalso. pose proof (norm2_tab T (W j)) as Q0. rewrite <- E in Q0.
    pose proof (Sum_nonneg_zero T (fun t => W j t ^ 2) ltac:(intros; apply pow2_ge_0) ltac:(lra) u Hu) as K. cbv beta in K. apply Hne. apply Rsqr_0_uniq. unfold Rsqr. nra. }
  assert (A : c <= norm2 (tab T (fun t => nth t s 0))) by (apply Rmult_le_reg_r with (norm2 (tab T (W j))); lra).
  change (map (fun t => - g t) (seq 0 T)) with (tab T (fun t => - g t)) in Ed. rewrite (tab_nth_len T s 0 Hl), vminus_tab in Ed.
  rewrite (tab_ext T _ (fun t => - G j t - nth t s 0)) in Ed by (intros t0 Ht; rewrite Eg; auto).
  pose proof (norm2_triang (tab T (fun t => nth t s 0)) (tab T (fun t => - G j t)) ltac:(rewrite !tab_length; auto)) as T3. rewrite norm2_minus_sym, vminus_tab, Ed in T3 by (rewrite !tab_length; auto). lra.
Qed.
Lemma mean_CS_mt n T f D : (1 <= n)%nat -> norm2 (tab T (fun t => Sum n (fun i => f i * D i t) / INR n)) <= rms n f * rms_mt n T D.
Proof.
  intros Hn. pose proof (INR_npos n Hn) as HN. apply sq_le_abs; [apply Rmult_le_pos; [apply rms_nonneg|apply rms_mt_nonneg]|]. rewrite Rpow_mult_distr, rms_sq, rms_mt_sq, norm2_tab by auto.
  rewrite (Sum_swap n T). rewrite <- (Sum_div T _ (fun t => Sum n (fun i => D i t ^ 2))), <- (Sum_scal T _ (fun t => Sum n (fun i => D i t ^ 2) / INR n)). apply Sum_le. intros t _. pose proof (Sum_CS n f (fun i => D i t)) as C.
  set (FD := Sum n (fun i => f i * D i t)) in *. set (FF := Sum n (fun i => f i ^ 2)) in *. set (DD := Sum n (fun i => D i t ^ 2)) in *.
  apply Rmult_le_reg_l with (INR n ^ 2); [apply pow_lt; lra|]. replace (INR n ^ 2 * (FD / INR n) ^ 2) with (FD ^ 2) by (field; lra). replace (INR n ^ 2 * (FF / INR n * (DD / INR n))) with (FF * DD) by (field; lra). auto.
Qed.
Lemma corr_close_mt n p T X Y W V j : (1 <= n)%nat -> norm2 (correlation_mt n p T X Y W j) <= norm2 (correlation_mt n p T X Y V j) + rms n (fun i => X i j) * rms_mt n T (fun i t => lin_mt p X W i t - lin_mt p X V i t).
Proof.
  intros Hn. pose proof (INR_npos n Hn) as HN. pose proof (mean_CS_mt n T (fun i => X i j) (fun i t => lin_mt p X W i t - lin_mt p X V i t) Hn) as C. cbv beta in C.
  unfold correlation_mt. change (norm2 (tab T (fun t => Sum n (fun i => X i j * (Y i t - lin_mt p X W i t)) / INR n)) <= norm2 (tab T (fun t => Sum n (fun i => X i j * (Y i t - lin_mt p X V i t)) / INR n)) + rms n (fun i => X i j) * rms_mt n T (fun i t => lin_mt p X W i t - lin_mt p X V i t)).
  pose proof (norm2_triang (tab T (fun t => Sum n (fun i => X i j * (Y i t - lin_mt p X W i t)) / INR n)) (tab T (fun t => Sum n (fun i => X i j * (Y i t - lin_mt p X V i t)) / INR n)) ltac:(rewrite !tab_length; auto)) as Q.
  rewrite norm2_minus_sym, vminus_tab in Q by (rewrite !tab_length; auto).
  rewrite (tab_ext T (fun i => Sum n (fun i0 => X i0 j * (Y i0 i - lin_mt p X V i0 i)) / INR n - Sum n (fun i0 => X i0 j * (Y i0 i - lin_mt p X W i0 i)) / INR n) (fun t => Sum n (fun i => X i j * (lin_mt p X W i t - lin_mt p X V i t)) / INR n)) in Q; [lra|].
  intros t _. unfold Rdiv. rewrite <- Rmult_minus_distr_r, <- Sum_minus. f_equal. apply Sum_ext. intros. ring.
Qed.
Lemma screened_mt k n p T X Y W V t c j u : (1 <= n)%nat -> penT_range k -> convexT k -> l1_weight_mt k c -> 0 <= t -> (j < p)%nat -> (u < T)%nat ->
  stationary_mt t (quad_loss_mt n T Y) p T X (penT k) W -> stationary_mt 0 (quad_loss_mt n T Y) p T X (penT k) V ->
  norm2 (correlation_mt n p T X Y V j) + rms n (fun i => X i j) * sqrt (t * gap_mt p T W V) + t < c -> W j u = 0.
Proof.
  intros Hn Hr Hc Hw Ht Hj Hu H1 H2 HM. destruct (Req_dec (W j u) 0) as [|Hne]; auto. exfalso.
  pose proof (selected_corr_mt k n p T X Y W t c j Hn Hr Hc Hw Hj H1 (ex_intro _ u (conj Hu Hne))) as A. pose proof (corr_close_mt n p T X Y W V j Hn) as B.
  destruct (targets_gap_mt k n p T X Y Y t 0 W V Hn Hr Hc ltac:(lra) H1 H2) as [G _]. rewrite Rplus_0_r in G.
  assert (Z : rms_mt n T (fun i t => Y i t - Y i t) = 0). { unfold rms_mt. rewrite Sum_zero by (intros; apply Sum_zero; intros; ring). unfold Rdiv. rewrite Rmult_0_l. apply sqrt_0. }
  rewrite Z, Rplus_0_l in G. pose proof (Rmult_le_compat_l (rms n (fun i => X i j)) _ _ (rms_nonneg _ _) G). lra.
Qed.
Lemma read_fit_mt srt (VS : valid_sort xops srt) n p T X Y a s fit t : (1 <= n)%nat -> 0 < a -> multi_fit srt n p T X Y (MtLassoPen a) s fit -> accepted fit -> patient p T s t ->
  settles_mt p T (fun W => forall j, (j < p)%nat -> norm2 (correlation_mt n p T X Y W j) <= a + t /\ ((exists u, (u < T)%nat /\ W j u <> 0) -> a - t <= norm2 (correlation_mt n p T X Y W j))) fit.
Proof.
  intros Hn Ha HF Hacc (Et & Ht & A1 & A2 & A3 & A4). destruct (c27_multi srt VS n p Hn T X Y a s fit HF t Hacc Et Ht A1 A2 A3 A4) as (N & W & HW & Hall).
  exists N, W. split; auto. intros j Hj. split; [|apply (selected_corr_mt (MtLassoPen a)); simpl; auto].
  rewrite corr_grad_mt by auto. destruct (HW j Hj) as (d & (g & Dg & (_ & s0 & Hs & Ed)) & Hd).
  set (G := gq n X Y (lin_mt p X W)) in *.
  assert (Eg : forall t, (t < T)%nat -> g t = G j t) by (intros t0 Ht0; eapply uniqueness_limite; [apply Dg; auto|apply quad_mt_deriv; auto]).
  pose proof (proj1 Hs) as Hl. change (map (W j) (seq 0 T)) with (tab T (W j)) in Hs.
  change (map (fun t => - g t) (seq 0 T)) with (tab T (fun t => - g t)) in Ed. rewrite (tab_nth_len T s0 0 Hl), vminus_tab in Ed.
  rewrite (tab_ext T _ (fun t => - G j t - nth t s0 0)) in Ed by (intros t0 Ht0; rewrite Eg; auto).
  pose proof (norm2_triang (tab T (fun t => - G j t)) (tab T (fun t => nth t s0 0)) ltac:(rewrite !tab_length; auto)) as Q. rewrite vminus_tab, Ed in Q.
  assert (norm2 (tab T (fun t => nth t s0 0)) <= a); [|lra].
  (* move along the subgradient itself *)
  pose proof (vstrong_grad (MtLassoPen a) T _ _ Ha I Hs (fun u => W j u + nth u s0 0)) as V. cbn [modulus_mt penT] in V. unfold abs_pen in V. rewrite !Rabs_right in V by (apply Rle_ge, norm2_pos).
  rewrite (Sum_ext T (fun t0 => nth t0 s0 0 * (W j t0 + nth t0 s0 0 - W j t0)) (fun u => nth u s0 0 ^ 2)) in V by (intros; ring).
  pose proof (norm2_triang (tab T (fun u => W j u + nth u s0 0)) (tab T (W j)) ltac:(rewrite !tab_length; auto)) as Q2. rewrite vminus_tab in Q2.
  rewrite (tab_ext T (fun i => W j i + nth i s0 0 - W j i) (fun u => nth u s0 0)) in Q2 by (intros; ring).
  set (N2 := norm2 (tab T (fun u => nth u s0 0))) in *. assert (P0 : 0 <= N2) by apply norm2_pos.
  assert (E2 : N2 ^ 2 = Sum T (fun u => nth u s0 0 ^ 2)) by apply norm2_tab.
  pose proof (Rmult_le_compat_l a _ _ (Rlt_le _ _ Ha) Q2). destruct (Rle_or_lt N2 a) as [|Hlt]; auto.
  assert (0 < N2 * (N2 - a)) by (apply Rmult_lt_0_compat; lra). assert (N2 * (N2 - a) = N2 ^ 2 - a * N2) by ring. lra.
Qed.
Lemma screen_fit_mt srt (VS : valid_sort xops srt) n p T X Y a s fit t V : (1 <= n)%nat -> 0 < a -> multi_fit srt n p T X Y (MtLassoPen a) s fit -> accepted fit -> patient p T s t ->
  stationary_mt 0 (quad_loss_mt n T Y) p T X (penT (MtLassoPen a)) V ->
  settles_mt p T (fun W => forall j, (j < p)%nat ->
    norm2 (correlation_mt n p T X Y V j) + rms n (fun i => X i j) * sqrt (t * (Sum n (fun i => Sum T (fun t => Y i t ^ 2)) / (2 * INR n) / a + Sum p (fun j => norm2 (map (V j) (seq 0 T))))) + t < a ->
    forall u, (u < T)%nat -> W j u = 0) fit.
Proof.
  intros Hn Ha HF Hacc (Et & Ht & A1 & A2 & A3 & A4) HV. destruct (c27_multi srt VS n p Hn T X Y a s fit HF t Hacc Et Ht A1 A2 A3 A4) as (N & W & HW & Hall).
  exists N, W. split; auto. intros j Hj HM u Hu. destruct (fit_size_mt srt VS n p T X Y _ s fit a N W Hn HF eq_refl Ha (Hall N (le_n _))) as [R1 S1].
  apply (screened_mt (MtLassoPen a) n p T X Y W V t a j u); simpl; auto; [lra|].
  assert (rms n (fun i => X i j) * sqrt (t * gap_mt p T W V) <= rms n (fun i => X i j) * sqrt (t * (Sum n (fun i => Sum T (fun t => Y i t ^ 2)) / (2 * INR n) / a + Sum p (fun j => norm2 (map (V j) (seq 0 T)))))); [|lra].
  apply Rmult_le_compat_l; [apply rms_nonneg|]. apply sqrt_le_1_alt, Rmult_le_compat_l; [lra|]. apply gap_bound_mt; [auto|lra].
Qed.
Lemma l2_modulus k b : l2_weight k b -> modulus k = b /\ convex1 k.
Proof. destruct k; cbn; intros; auto; contradiction. Qed.
Lemma targets_models k n p X y y' e1 e2 b w v : (1 <= n)%nat -> pen1_range k -> l2_weight k b -> 0 <= e1 + e2 ->
  stationary e1 (quad_loss n y) p X (pen1 k) w -> stationary e2 (quad_loss n y') p X (pen1 k) v ->
  rms n (fun i => lin p X w i - lin p X v i) <= rms n (fun i => y i - y' i) + sqrt ((e1 + e2) * gap p w v) /\
  b * Sum p (fun j => (w j - v j) ^ 2) <= (e1 + e2) * gap p w v + rms n (fun i => y i - y' i) ^ 2 / 4.
Proof. intros Hn Hr Hb He H1 H2. destruct (l2_modulus k b Hb) as [<- Hc]. apply targets_gap; auto. Qed.
