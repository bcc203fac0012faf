(** How far the training loss of a fit is from that of a refit of the selected features. *)
From Coq Require Import List ZArith Bool Arith Reals Lra Lia.
From Verif Require Import Ops Arr MUtils MDatasets MHyper MEstimators XR SpecPen VecR PBase RSum SpecLin SpecData PDatafit PCalc PDataProps SpecSolve PLaws PSubdiff PDescent PConv PTheory SpecOpt PFitOpt PCert SpecBudget PRateFit PMore SpecOracle POracle SpecPath SpecSample PSample PDup SpecIncoh PIncoh SpecShrink.
Import ListNotations.
Open Scope R_scope.

Lemma pull_nonneg k x : pen1_range k -> 0 <= pull k x.
Proof.
  destruct k; cbn [pen1_range pull]; intros H; [lra| |apply Rmax_l]. destruct H as (Ha & Hr). pose proof (Rabs_pos x).
  apply Rplus_le_le_0_compat; [apply Rmult_le_pos; lra|apply Rmult_le_pos; auto; apply Rmult_le_pos; lra].
Qed.
Lemma rsign_abs x : x <> 0 -> rsign x * Rabs x = x /\ Rabs (rsign x) = 1 /\ x * rsign x = Rabs x.
Proof.
  intros Hx. unfold rsign. destruct (Rltb_case x 0) as [H|H]; [rewrite (Rabs_left x), Rabs_left by lra|rewrite (Rabs_pos_eq x), Rabs_pos_eq by lra]; lra.
Qed.
Lemma score_pull k x g t : pen1_range k -> x <> 0 -> dist1 k x g <= t -> Rabs (g + rsign x * pull k x) <= t.
Proof.
  intros Hr Hx. destruct (rsign_abs x Hx) as (S1 & S2 & S3). destruct k as [a|a r|a gm]; cbn [dist1 pull pen1_range] in *; unfold r_l1_score, r_l1l2_score, r_mcp_score; destruct (Reqb_case x 0) as [E|_]; try contradiction.
  - intros H. rewrite <- Rabs_Ropp. replace (- (g + rsign x * a)) with (- g - rsign x * a) by ring. auto.
  - intros H. rewrite <- Rabs_Ropp. replace (- (g + rsign x * (a * r + a * (1 - r) * Rabs x))) with (- g - a * (rsign x * r + (1 - r) * (rsign x * Rabs x))) by ring. rewrite S1. auto.
  - destruct Hr as (Ha & Hg). destruct (Rltb_case (Rabs x) (a * gm)) as [L|L]; intros H.
    + rewrite Rmax_right. { replace (g + rsign x * (a - Rabs x / gm)) with (g + a * rsign x - (rsign x * Rabs x) / gm) by (field; lra). rewrite S1. auto. }
      apply Rmult_le_reg_r with gm; auto. replace ((a - Rabs x / gm) * gm) with (a * gm - Rabs x) by (field; lra). lra.
    + rewrite Rmax_left. { rewrite Rmult_0_r, Rplus_0_r. auto. }
      apply Rmult_le_reg_r with gm; auto. replace ((a - Rabs x / gm) * gm) with (a * gm - Rabs x) by (field; lra). lra.
Qed.
Section Stat.
Variables (n p : nat) (Hn : (1 <= n)%nat) (X : rmat) (y : nat -> R) (l : single_loss) (k : single_pen) (t : R) (w : nat -> R).
Hypotheses (Hr : pen1_range k) (Hst : stationary t (loss1 l n y) p X (pen1 k) w).
Lemma selected_grad j : (j < p)%nat -> w j <> 0 -> Rabs (dloss1 n p l X y w j + rsign (w j) * pull k (w j)) <= t.
Proof. intros Hj Hw. apply score_pull; auto. apply (proj1 (stationary_iff n p Hn l k X y w t Hr) Hst j Hj). Qed.
Lemma grad_le j : (j < p)%nat -> Rabs (dloss1 n p l X y w j) <= t + pull k (w j).
Proof.
  intros Hj. destruct (Req_dec (w j) 0) as [Z|Z].
  - pose proof (proj1 (stationary_iff n p Hn l k X y w t Hr) Hst j Hj) as D. rewrite Z in D |- *. set (g := Rabs (dloss1 n p l X y w j)) in *.
    destruct k as [a|a r|a gm]; cbn [dist1 pull pen1_range] in *; unfold r_l1_score, r_l1l2_score, r_mcp_score in D; rewrite Reqb_refl in D; fold g in D; rewrite ?Rabs_R0 in *.
    + pose proof (Rmax_r 0 (g - a)). lra.
    + pose proof (Rmax_r 0 (g - a * r)). lra.
    + pose proof (Rmax_r 0 (g - a)). unfold Rdiv. rewrite Rmult_0_l, Rminus_0_r. pose proof (Rmax_r 0 a). lra.
  - pose proof (selected_grad j Hj Z) as G.
    replace (dloss1 n p l X y w j) with ((dloss1 n p l X y w j + rsign (w j) * pull k (w j)) - rsign (w j) * pull k (w j)) by ring.
    apply Rle_trans with (1 := Rabs_triang _ _). apply Rplus_le_compat; auto. rewrite Rabs_Ropp, Rabs_mult, (proj1 (proj2 (rsign_abs _ Z))), Rmult_1_l. rewrite Rabs_pos_eq; [lra|apply pull_nonneg; auto].
Qed.
Lemma refit_gain v : loss1 l n y (lin p X w) <= loss1 l n y (lin p X v) + Sum p (fun j => (t + pull k (w j)) * Rabs (w j - v j)).
Proof.
  pose proof (loss1_convex l n p X y w v Hn) as Q.
  assert (B : - Sum p (fun j => dloss1 n p l X y w j * (v j - w j)) <= Sum p (fun j => (t + pull k (w j)) * Rabs (w j - v j))); [|lra].
  rewrite <- Sum_opp. apply Sum_le. intros j Hj. replace (- (dloss1 n p l X y w j * (v j - w j))) with (dloss1 n p l X y w j * (w j - v j)) by ring.
  apply Rle_trans with (1 := Rle_abs _). rewrite Rabs_mult. apply Rmult_le_compat_r; [apply Rabs_pos|]. apply grad_le; auto.
Qed.
End Stat.
Lemma quad_line n p X y w s : (1 <= n)%nat -> loss1 Squared n y (lin p X (fun j => (1 + s) * w j)) =
  loss1 Squared n y (lin p X w) + s * Sum p (fun j => dloss1 n p Squared X y w j * w j) + s ^ 2 * msp n p X w / 2.
Proof.
  intros Hn. pose proof (INR_npos n Hn) as HN.
  assert (D : Sum p (fun j => dloss1 n p Squared X y w j * w j) = Sum n (fun i => (lin p X w i - y i) * lin p X w i) / INR n).
  { rewrite <- Sum_div. unfold lin at 2. rewrite (Sum_ext n _ (fun i => Sum p (fun j => X i j * (lin p X w i - y i) / INR n * w j))).
    - rewrite Sum_swap. apply Sum_ext. intros j _. rewrite dloss1_slope by auto. cbn [slope]. rewrite <- Sum_div, <- Sum_scal_r. apply Sum_ext. intros. reflexivity.
    - intros i _. unfold Rdiv. rewrite <- Sum_scal, <- Sum_scal_r. apply Sum_ext. intros. ring. }
  rewrite D. unfold msp. cbn [loss1]. unfold quad_loss. assert (EL : forall i, lin p X (fun j => (1 + s) * w j) i = (1 + s) * lin p X w i) by (intros i; unfold lin; rewrite <- Sum_scal; apply Sum_ext; intros; ring).
  rewrite (Sum_ext n (fun i => (y i - lin p X (fun j => (1 + s) * w j) i) ^ 2) (fun i => (y i - lin p X w i) ^ 2 + (2 * s) * ((lin p X w i - y i) * lin p X w i) + s ^ 2 * lin p X w i ^ 2)) by (intros; rewrite EL; ring).
  rewrite !Sum_plus, !Sum_scal. field. lra.
Qed.
(** moving along the model itself *)
Lemma stretch n p X y k t w : (1 <= n)%nat -> pen1_range k -> stationary t (loss1 Squared n y) p X (pen1 k) w ->
  let D := Sum p (fun j => (pull k (w j) - t) * Rabs (w j)) in 0 <= D -> 0 < msp n p X w ->
  loss1 Squared n y (lin p X (fun j => (1 + D / msp n p X w) * w j)) <= loss1 Squared n y (lin p X w) - D ^ 2 / (2 * msp n p X w).
Proof.
  intros Hn Hr Hst D HD HM. rewrite quad_line by auto. set (M := msp n p X w) in *. set (G := Sum p (fun j => dloss1 n p Squared X y w j * w j)).
  assert (HG : G <= - D).
  { unfold G, D. rewrite <- Sum_opp. apply Sum_le. intros j Hj. destruct (Req_dec (w j) 0) as [Z|Z]; [rewrite Z, Rabs_R0; lra|].
    pose proof (selected_grad n p Hn X y Squared k t w Hr Hst j Hj Z) as S. destruct (rsign_abs _ Z) as (_ & _ & S3).
    assert (Q : (dloss1 n p Squared X y w j + rsign (w j) * pull k (w j)) * w j <= t * Rabs (w j)) by (apply Rle_trans with (1 := Rle_abs _); rewrite Rabs_mult; apply Rmult_le_compat_r; auto; apply Rabs_pos).
    replace ((dloss1 n p Squared X y w j + rsign (w j) * pull k (w j)) * w j) with (dloss1 n p Squared X y w j * w j + pull k (w j) * (w j * rsign (w j))) in Q by ring. rewrite S3 in Q. lra. }
  assert (0 <= D / M) by (apply Rmult_le_pos; auto; left; apply Rinv_0_lt_compat; auto).
  assert (D / M * G <= D / M * - D) by (apply Rmult_le_compat_l; auto).
  replace (D ^ 2 / (2 * M)) with (D / M * D - (D / M) ^ 2 * M / 2) by (field; lra). lra.
Qed.
(** *** several tasks *)
Lemma quad_line_mt n p T X Y W s : (1 <= n)%nat -> quad_loss_mt n T Y (lin_mt p X (fun j t => (1 + s) * W j t)) =
  quad_loss_mt n T Y (lin_mt p X W) + s * Sum p (fun j => Sum T (fun t => gq n X Y (lin_mt p X W) j t * W j t)) + s ^ 2 * msp_mt n p T X W / 2.
Proof.
  intros Hn. pose proof (INR_npos n Hn) as HN.
  assert (D : Sum p (fun j => Sum T (fun t => gq n X Y (lin_mt p X W) j t * W j t)) = Sum n (fun i => Sum T (fun t => (lin_mt p X W i t - Y i t) * lin_mt p X W i t)) / INR n).
  { rewrite (Sum_swap p T), (Sum_swap n T), <- Sum_div. apply Sum_ext. intros t _. unfold lin_mt at 3. rewrite <- (Sum_div n).
    rewrite (Sum_ext n _ (fun i => Sum p (fun j => (lin_mt p X W i t - Y i t) / INR n * (X i j * W j t)))) by (intros; rewrite Sum_scal; field; lra).
    rewrite Sum_swap. apply Sum_ext. intros j _. unfold gq. rewrite <- Sum_minus, <- Sum_div, <- Sum_scal_r. apply Sum_ext. intros i _. field. lra. }
  rewrite D. unfold msp_mt, quad_loss_mt. assert (EL : forall i t, lin_mt p X (fun j t => (1 + s) * W j t) i t = (1 + s) * lin_mt p X W i t) by (intros i t; unfold lin_mt; rewrite <- Sum_scal; apply Sum_ext; intros; ring).
  rewrite (Sum_ext n (fun i => Sum T (fun t => (Y i t - lin_mt p X (fun j t => (1 + s) * W j t) i t) ^ 2))
    (fun i => Sum T (fun t => (Y i t - lin_mt p X W i t) ^ 2) + (2 * s) * Sum T (fun t => (lin_mt p X W i t - Y i t) * lin_mt p X W i t) + s ^ 2 * Sum T (fun t => lin_mt p X W i t ^ 2))).
  - rewrite !Sum_plus, !Sum_scal. field. lra.
  - intros i _. rewrite <- !Sum_scal, <- !Sum_plus. apply Sum_ext. intros t _. rewrite EL. ring.
Qed.
Section StatT.
Variables (n p T : nat) (Hn : (1 <= n)%nat) (X Y : rmat) (a eps : R) (W : rmat).
Hypotheses (Ha : 0 < a) (Ht : 0 < eps) (Hst : stationary_mt eps (quad_loss_mt n T Y) p T X (penT (MtLassoPen a)) W).
Local Notation rown U j := (norm2 (map (U j) (seq 0 T))).
Lemma corr_gq j t : Sum n (fun i => X i j * (Y i t - lin_mt p X W i t)) / INR n = - gq n X Y (lin_mt p X W) j t.
Proof. pose proof (INR_npos n Hn). unfold gq. rewrite (Sum_ext n (fun i => X i j * (Y i t - lin_mt p X W i t)) (fun i => X i j * Y i t - X i j * lin_mt p X W i t)), Sum_minus by (intros; ring). field. lra. Qed.
Lemma refit_gain_mt V : quad_loss_mt n T Y (lin_mt p X W) <= quad_loss_mt n T Y (lin_mt p X V) + (eps + a) * Sum p (fun j => rown (fun j t => W j t - V j t) j).
Proof.
  pose proof (quad_convex n T p X Y W V Hn) as Q.
  assert (B : - Sum p (fun j => Sum T (fun t => gq n X Y (lin_mt p X W) j t * (V j t - W j t))) <= (eps + a) * Sum p (fun j => rown (fun j t => W j t - V j t) j)); [|lra].
  rewrite <- Sum_opp, <- Sum_scal. apply Sum_le. intros j Hj. destruct (row_bound n p T Hn X Y a eps W Ha Hst j Hj) as [P _].
  pose proof (dot_le T (fun t => Sum n (fun i => X i j * (Y i t - lin_mt p X W i t)) / INR n) (fun t => V j t - W j t)) as D. cbv beta in D.
  rewrite (Sum_ext T (fun t => Sum n (fun i => X i j * (Y i t - lin_mt p X W i t)) / INR n * (V j t - W j t)) (fun t => - (gq n X Y (lin_mt p X W) j t * (V j t - W j t)))), Sum_opp in D by (intros; rewrite corr_gq; ring).
  apply Rle_trans with (1 := Rle_abs _). apply Rle_trans with (1 := D).
  replace (norm2 (tab T (fun t => V j t - W j t))) with (rown (fun j t => W j t - V j t) j).
  - apply Rmult_le_compat_r; [apply norm2_pos|]. rewrite (Rplus_comm eps a). exact P.
  - apply Rsqr_inj; [apply norm2_pos|apply norm2_pos|]. rewrite !Rsqr_pow2. change (map (fun t => W j t - V j t) (seq 0 T)) with (tab T (fun t => W j t - V j t)). rewrite !norm2_tab. apply Sum_ext. intros. ring.
Qed.
Lemma stretch_mt : let D := (a - eps) * Sum p (fun j => rown W j) in 0 <= D -> 0 < msp_mt n p T X W ->
  quad_loss_mt n T Y (lin_mt p X (fun j t => (1 + D / msp_mt n p T X W) * W j t)) <= quad_loss_mt n T Y (lin_mt p X W) - D ^ 2 / (2 * msp_mt n p T X W).
Proof.
  intros D HD HM. rewrite quad_line_mt by auto. set (M := msp_mt n p T X W) in *. set (G := Sum p _).
  assert (HG : G <= - D).
  { unfold G, D. rewrite <- Sum_scal, <- Sum_opp. apply Sum_le. intros j Hj. destruct (row_bound n p T Hn X Y a eps W Ha Hst j Hj) as [_ P].
    rewrite (Sum_ext T (fun t => W j t * _) (fun t => - (gq n X Y (lin_mt p X W) j t * W j t))), Sum_opp in P by (intros; rewrite corr_gq; ring). unfold tab in P. lra. }
  assert (0 <= D / M) by (apply Rmult_le_pos; auto; left; apply Rinv_0_lt_compat; auto).
  assert (D / M * G <= D / M * - D) by (apply Rmult_le_compat_l; auto).
  replace (D ^ 2 / (2 * M)) with (D / M * D - (D / M) ^ 2 * M / 2) by (field; lra). lra.
Qed.
End StatT.
Section Fits.
Context (srt : list xr -> list nat) (VS : valid_sort xops srt).
Lemma c108_refit n p X y l k s fit t : (1 <= n)%nat -> targets_ok l n y -> single_fit srt n p X y l k s fit -> accepted fit -> steps_ok Rlt k l n p X -> patient p 1 s t ->
  settles p (fun w => forall v, loss1 l n y (lin p X w) <= loss1 l n y (lin p X v) + Sum p (fun j => (t + pull k (w j)) * Rabs (w j - v j))) fit.
Proof.
  intros Hn Hy HF Ha Hs (Et & Ht & H1 & H2 & H3 & H4). rewrite Nat.mul_1_r in H4.
  destruct (c27_single srt VS n p Hn X y _ _ s fit HF Hy Hs t Ha Et Ht H1 H2 H3 H4) as (N & w & Hst & Hall). exists N, w. split; auto.
  destruct (inv1 srt VS n p Hn X y _ _ s fit HF Hy (steps_lt_le _ _ _ _ _ Hs) N _ (Hall N (le_n N))) as (Hr & _). intros v. apply refit_gain; auto.
Qed.
Lemma c108_mcp n p X y l a g s fit t : (1 <= n)%nat -> targets_ok l n y -> single_fit srt n p X y l (McpPen a g) s fit -> accepted fit -> steps_ok Rlt (McpPen a g) l n p X -> patient p 1 s t ->
  settles p (fun w => (forall j, (j < p)%nat -> w j = 0 \/ a * g <= Rabs (w j)) ->
    forall v, uses_only p w v -> loss1 l n y (lin p X w) <= loss1 l n y (lin p X v) + t * Sum p (fun j => Rabs (w j - v j))) fit.
Proof.
  intros Hn Hy HF Ha Hs HP. destruct (c108_refit n p X y l (McpPen a g) s fit t Hn Hy HF Ha Hs HP) as (N & w & Q & Hall). exists N, w. split; auto. intros Hb v Hv.
  destruct (inv1 srt VS n p Hn X y _ _ s fit HF Hy (steps_lt_le _ _ _ _ _ Hs) N _ (Hall N (le_n N))) as ((Hr & Hg) & _).
  apply Rle_trans with (1 := Q v). apply Rplus_le_compat_l. rewrite <- Sum_scal. apply Sum_le. intros j Hj. destruct (Hb j Hj) as [Z|B].
  - rewrite Z, (Hv j Hj Z), Rminus_0_r, Rabs_R0. lra.
  - cbn [pull]. rewrite Rmax_left; [lra|]. apply Rmult_le_reg_r with g; auto. replace ((a - Rabs (w j) / g) * g) with (a * g - Rabs (w j)) by (field; lra). lra.
Qed.
Lemma c108_stretch n p X y k s fit t : (1 <= n)%nat -> single_fit srt n p X y Squared k s fit -> accepted fit -> steps_ok Rlt k Squared n p X -> patient p 1 s t ->
  settles p (fun w => let D := Sum p (fun j => (pull k (w j) - t) * Rabs (w j)) in 0 <= D -> 0 < msp n p X w ->
    exists v, uses_only p w v /\ loss1 Squared n y (lin p X v) <= loss1 Squared n y (lin p X w) - D ^ 2 / (2 * msp n p X w)) fit.
Proof.
  intros Hn HF Ha Hs (Et & Ht & H1 & H2 & H3 & H4). rewrite Nat.mul_1_r in H4.
  destruct (c27_single srt VS n p Hn X y _ _ s fit HF I Hs t Ha Et Ht H1 H2 H3 H4) as (N & w & Hst & Hall). exists N, w. split; auto.
  destruct (inv1 srt VS n p Hn X y _ _ s fit HF I (steps_lt_le _ _ _ _ _ Hs) N _ (Hall N (le_n N))) as (Hr & _). intros D HD HM.
  exists (fun j => (1 + D / msp n p X w) * w j). split; [intros j _ Z; rewrite Z; ring|]. apply (stretch n p X y k t w); auto.
Qed.
Lemma c108_multi n p T X Y a s fit t : (1 <= n)%nat -> multi_fit srt n p T X Y (MtLassoPen a) s fit -> accepted fit -> patient p T s t ->
  let size (U : rmat) j := norm2 (map (U j) (seq 0 T)) in
  settles_mt p T (fun W => (forall V, quad_loss_mt n T Y (lin_mt p X W) <= quad_loss_mt n T Y (lin_mt p X V) + (t + a) * Sum p (size (fun j u => W j u - V j u))) /\
    let D := (a - t) * Sum p (size W) in 0 <= D -> 0 < msp_mt n p T X W ->
      exists V, (forall j u, (j < p)%nat -> (u < T)%nat -> size W j = 0 -> V j u = 0) /\ quad_loss_mt n T Y (lin_mt p X V) <= quad_loss_mt n T Y (lin_mt p X W) - D ^ 2 / (2 * msp_mt n p T X W)) fit.
Proof.
  intros Hn HF Hac (Et & Ht & H1 & H2 & H3 & H4) size.
  destruct (c27_multi srt VS n p Hn T X Y a s fit HF t Hac Et Ht H1 H2 H3 H4) as (N & W & Hst & Hall). exists N, W. split; auto.
  pose proof (proj1 (multi_run srt VS n p Hn T X Y _ s fit HF)) as Hr. cbn [penT_range] in Hr. split.
  - intros V. apply refit_gain_mt; auto.
  - intros D HD HM. exists (fun j u => (1 + D / msp_mt n p T X W) * W j u). split.
    + intros j u Hj Hu Z. pose proof (norm2_tab T (W j)) as Q. unfold tab in Q. unfold size in Z. rewrite Z in Q.
      pose proof (Sum_ge_term T (fun t => W j t ^ 2) u ltac:(intros; apply pow2_ge_0) Hu) as V. cbv beta in V. rewrite <- Q in V. pose proof (pow2_ge_0 (W j u)). assert (W j u = 0) as -> by nra. ring.
    + apply (stretch_mt n p T Hn X Y a t W); auto.
Qed.
End Fits.
