(** The stopping criterion certifies near-optimality for convex problems. *)
From Coq Require Import List ZArith Bool Arith Reals Lra Lia.
From Verif Require Import Ops Arr MUtils MDatasets MHyper MEstimators XR SpecPen VecR PBase RSum PProx SpecLin SpecData PDatafit PCalc PDataProps SpecSolve PLaws PSubdiff PDescent PConv PTheory SpecOpt PFitOpt.
Import ListNotations.
Open Scope R_scope.

Lemma vanish A B C : 0 <= B -> (forall t, 0 < t <= 1 -> A - t * B <= C) -> A <= C.
Proof.
  intros HB H. destruct (Rle_dec A C) as [|Hn]; auto. exfalso. assert (HAC : 0 < A - C) by lra.
  set (t := Rmin 1 ((A - C) / (2 * (B + 1)))). assert (Ht : 0 < (A - C) / (2 * (B + 1))) by (apply Rdiv_lt_0_compat; lra).
  assert (0 < t <= 1) by (unfold t, Rmin; destruct (Rle_dec _ _); lra). specialize (H t H0).
  assert (t * (2 * (B + 1)) <= A - C).
  { apply Rle_trans with ((A - C) / (2 * (B + 1)) * (2 * (B + 1))); [apply Rmult_le_compat_r; [lra|unfold t; apply Rmin_r]|right; field; lra]. }
  nra.
Qed.
Definition seg_convex (phi : R -> R) : Prop := forall a b t, 0 <= t <= 1 -> phi (a + t * (b - a)) <= (1 - t) * phi a + t * phi b.
Lemma abs_convex a : 0 <= a -> seg_convex (abs_pen a).
Proof.
  intros Ha u v t Ht. unfold abs_pen. assert (Rabs (u + t * (v - u)) <= (1 - t) * Rabs u + t * Rabs v).
  { replace (u + t * (v - u)) with ((1 - t) * u + t * v) by ring. apply Rle_trans with (1 := Rabs_triang _ _). rewrite !Rabs_mult, (Rabs_right (1 - t)), (Rabs_right t) by lra. lra. }
  apply Rle_trans with (a * ((1 - t) * Rabs u + t * Rabs v)); [apply Rmult_le_compat_l; auto|lra].
Qed.
Lemma sq_convex u v t : 0 <= t <= 1 -> (u + t * (v - u)) ^ 2 <= (1 - t) * u ^ 2 + t * v ^ 2.
Proof. intros Ht. pose proof (pow2_ge_0 (v - u)). assert (0 <= t * (1 - t) * (v - u) ^ 2) by (apply Rmult_le_pos; auto; apply Rmult_le_pos; lra). nra. Qed.
Lemma enet_convex a r : 0 <= a -> 0 <= r <= 1 -> seg_convex (enet_pen a r).
Proof.
  intros Ha Hr u v t Ht. unfold enet_pen. pose proof (abs_convex 1 ltac:(lra) u v t Ht) as H1. unfold abs_pen in H1. rewrite !Rmult_1_l in H1.
  pose proof (sq_convex u v t Ht) as H2. set (A := Rabs (u + t * (v - u))) in *. set (B := (u + t * (v - u)) ^ 2) in *.
  apply Rle_trans with (a * (r * ((1 - t) * Rabs u + t * Rabs v) + (1 - r) / 2 * ((1 - t) * u ^ 2 + t * v ^ 2))); [|right; ring].
  apply Rmult_le_compat_l; auto. apply Rplus_le_compat; apply Rmult_le_compat_l; lra.
Qed.
Lemma subgrad_global phi w s : seg_convex phi -> subgrad phi w s -> forall x, phi w + s * (x - w) <= phi x.
Proof.
  intros HC (m & Hm & H) x. apply (vanish _ (m * (x - w) ^ 2)); [apply Rmult_le_pos; auto; apply pow2_ge_0|]. intros t Ht.
  specialize (H (w + t * (x - w))). specialize (HC w x t ltac:(lra)). replace (w + t * (x - w) - w) with (t * (x - w)) in H by ring.
  assert (t * (phi w + s * (x - w) - t * (m * (x - w) ^ 2)) <= t * phi x) by (rewrite Rpow_mult_distr in H; simpl in H; simpl; lra). apply Rmult_le_reg_l with t; lra.
Qed.
Lemma pen1_convex k : pen1_range k -> convex1 k -> seg_convex (pen1 k).
Proof. destruct k; cbn [pen1_range convex1 pen1]; intros; [apply abs_convex; auto|apply enet_convex; tauto|contradiction]. Qed.

Lemma loss1_convex l n p X y w v : (1 <= n)%nat -> loss1 l n y (lin p X w) + Sum p (fun j => dloss1 n p l X y w j * (v j - w j)) <= loss1 l n y (lin p X v).
Proof.
  intros Hn. destruct l; cbn [loss1 dloss1].
  - assert (Q := quad_convex n 1 p X (fun i _ => y i) (fun j _ => w j) (fun j _ => v j) Hn). rewrite !quad_single in Q.
    eapply Rle_trans; [|exact Q]. right. f_equal. apply Sum_ext. intros j Hj. rewrite Sum_S, Sum_0, Rplus_0_l. reflexivity.
  - assert (Q := log_convex n p X y (fun j _ => w j) (fun j _ => v j) Hn). unfold logloss in Q.
    eapply Rle_trans; [|exact Q]. right. f_equal. apply Sum_ext. intros j Hj. rewrite Sum_S, Sum_0, Rplus_0_l. reflexivity.
Qed.
Lemma c28_single l k n p X y eps w v : (1 <= n)%nat -> pen1_range k -> convex1 k -> stationary eps (loss1 l n y) p X (pen1 k) w ->
  objective (loss1 l n y) p X (pen1 k) w <= objective (loss1 l n y) p X (pen1 k) v + eps * Sum p (fun j => Rabs (w j - v j)).
Proof.
  intros Hn Hr Hc Hst. assert (HC := pen1_convex k Hr Hc). unfold objective. assert (Q := loss1_convex l n p X y w v Hn).
  assert (A : Sum p (fun j => pen1 k (w j)) <= Sum p (fun j => pen1 k (v j)) + Sum p (fun j => dloss1 n p l X y w j * (v j - w j)) + eps * Sum p (fun j => Rabs (w j - v j))).
  { rewrite <- Sum_scal, <- !Sum_plus. apply Sum_le. intros j Hj. destruct (Hst j Hj) as (d & (g & Dg & (_ & s & Hs & Ed)) & Hd).
    assert (g = dloss1 n p l X y w j) as -> by (eapply uniqueness_limite; [exact Dg|apply loss1_deriv; auto]).
    pose proof (subgrad_global _ _ _ HC Hs (v j)) as Hg. set (G := dloss1 n p l X y w j) in *.
    assert (E : s * (v j - w j) = - G * (v j - w j) - (- G - s) * (v j - w j)) by ring.
    assert (B : (- G - s) * (v j - w j) <= d * Rabs (w j - v j)).
    { apply Rle_trans with (1 := Rle_abs _). rewrite Rabs_mult, Ed, (Rabs_minus_sym (v j)). lra. }
    assert (d * Rabs (w j - v j) <= eps * Rabs (w j - v j)) by (apply Rmult_le_compat_r; [apply Rabs_pos|auto]). lra. }
  lra.
Qed.
(** *** rows *)
Lemma norm_seg T f g t : 0 <= t <= 1 -> norm2 (tab T (fun i => f i + t * (g i - f i))) <= (1 - t) * norm2 (tab T f) + t * norm2 (tab T g).
Proof.
  intros Ht. apply Rle_trans with (1 := norm2_triang _ (tab T (fun i => (1 - t) * f i)) ltac:(rewrite !tab_length; auto)).
  rewrite vminus_tab. rewrite (tab_ext T (fun i => f i + t * (g i - f i) - (1 - t) * f i) (fun i => t * g i)) by (intros; ring).
  rewrite <- !vscale_tab, !norm2_scale, (Rabs_right (1 - t)), (Rabs_right t) by lra. lra.
Qed.
Lemma penT_seg k T f g t : penT_range k -> convexT k -> 0 <= t <= 1 -> penT k (tab T (fun i => f i + t * (g i - f i))) <= (1 - t) * penT k (tab T f) + t * penT k (tab T g).
Proof.
  intros Hr Hc Ht. pose proof (norm_seg T f g t Ht) as HN. pose proof (norm2_pos (tab T (fun i => f i + t * (g i - f i)))) as H0. pose proof (norm2_pos (tab T f)) as Hf. pose proof (norm2_pos (tab T g)) as Hg.
  set (N := norm2 (tab T (fun i => f i + t * (g i - f i)))) in *. set (a := norm2 (tab T f)) in *. set (b := norm2 (tab T g)) in *.
  replace ((1 - t) * a + t * b) with (a + t * (b - a)) in HN by ring.
  destruct k as [al|al r|]; cbn [penT_range convexT penT] in *; [| |contradiction]; fold N a b.
  - apply Rle_trans with (2 := abs_convex al ltac:(lra) a b t Ht). unfold abs_pen. rewrite !Rabs_right by lra. apply Rmult_le_compat_l; lra.
  - apply Rle_trans with (2 := enet_convex al r ltac:(lra) ltac:(lra) a b t Ht). unfold enet_pen. rewrite !Rabs_right by lra. apply Rmult_le_compat_l; [lra|].
    apply Rplus_le_compat; apply Rmult_le_compat_l; try lra. apply pow_incr. lra.
Qed.
Lemma vsubgrad_global k T f s : penT_range k -> convexT k -> vsubgrad T (penT k) (tab T f) s ->
  forall g, penT k (tab T f) + Sum T (fun t => nth t s 0 * (g t - f t)) <= penT k (tab T g).
Proof.
  intros Hr Hc (Hl & m & Hm & H) g. set (B := Sum T (fun i => (g i - f i) ^ 2)). assert (HB : 0 <= B) by (apply Sum_nonneg; intros; apply pow2_ge_0).
  apply (vanish _ (m * B)); [apply Rmult_le_pos; auto|]. intros t Ht.
  specialize (H (tab T (fun i => f i + t * (g i - f i))) (tab_length _ _)). rewrite vminus_tab in H. rewrite (tab_nth_len T s 0 Hl), !dotp_tab in H.
  rewrite (Sum_ext T (fun i => nth i s 0 * (f i + t * (g i - f i) - f i)) (fun i => t * (nth i s 0 * (g i - f i)))) in H by (intros; ring).
  rewrite (Sum_ext T (fun i => (f i + t * (g i - f i) - f i) * (f i + t * (g i - f i) - f i)) (fun i => t * t * (g i - f i) ^ 2)) in H by (intros; ring).
  rewrite !Sum_scal in H. fold B in H. pose proof (penT_seg k T f g t Hr Hc ltac:(lra)).
  apply Rmult_le_reg_l with t; [lra|]. set (S := Sum T (fun i => nth i s 0 * (g i - f i))) in *. lra.
Qed.
Lemma c28_multi k n p T X Y eps W V : (1 <= n)%nat -> penT_range k -> convexT k -> stationary_mt eps (quad_loss_mt n T Y) p T X (penT k) W ->
  objective_mt (quad_loss_mt n T Y) p T X (penT k) W <= objective_mt (quad_loss_mt n T Y) p T X (penT k) V + eps * Sum p (fun j => norm2 (map (fun t => W j t - V j t) (seq 0 T))).
Proof.
  intros Hn Hr Hc Hst. unfold objective_mt. assert (Q := quad_convex n T p X Y W V Hn).
  change (fun j => penT k (map (W j) (seq 0 T))) with (fun j => penT k (tab T (W j))). change (fun j => penT k (map (V j) (seq 0 T))) with (fun j => penT k (tab T (V j))).
  change (fun j => norm2 (map (fun t => W j t - V j t) (seq 0 T))) with (fun j => norm2 (tab T (fun t => W j t - V j t))).
  set (G := gq n X Y (lin_mt p X W)) in *.
  assert (A : Sum p (fun j => penT k (tab T (W j))) <= Sum p (fun j => penT k (tab T (V j))) + Sum p (fun j => Sum T (fun t => G j t * (V j t - W j t))) + eps * Sum p (fun j => norm2 (tab T (fun t => W j t - V j t)))).
  { rewrite <- Sum_scal, <- !Sum_plus. apply Sum_le. intros j Hj. destruct (Hst j Hj) as (d & (g & Dg & (_ & s & Hs & Ed)) & Hd).
    assert (Eg : forall t, (t < T)%nat -> g t = G j t) by (intros t Ht; eapply uniqueness_limite; [apply Dg; auto|apply quad_mt_deriv; auto]).
    pose proof (proj1 Hs) as Hl. change (map (W j) (seq 0 T)) with (tab T (W j)) in Hs. pose proof (vsubgrad_global k T _ _ Hr Hc Hs (V j)) as Hg.
    change (map (fun t => - g t) (seq 0 T)) with (tab T (fun t => - g t)) in Ed. rewrite (tab_nth_len T s 0 Hl), vminus_tab in Ed.
    rewrite (tab_ext T _ (fun t => - G j t - nth t s 0)) in Ed by (intros t Ht; rewrite Eg; auto).
    assert (E : Sum T (fun t => nth t s 0 * (V j t - W j t)) = - Sum T (fun t => G j t * (V j t - W j t)) + Sum T (fun t => (- G j t - nth t s 0) * (W j t - V j t))).
    { rewrite <- Sum_opp, <- Sum_plus. apply Sum_ext. intros. ring. }
    assert (B : - (d * norm2 (tab T (fun t => W j t - V j t))) <= Sum T (fun t => (- G j t - nth t s 0) * (W j t - V j t))).
    { rewrite <- Ed. assert (CS := cauchy_schwarz (vscale (-1) (tab T (fun t => - G j t - nth t s 0))) (tab T (fun t => W j t - V j t))).
      rewrite dotp_scale_l, norm2_scale, dotp_tab in CS. replace (Rabs (-1)) with 1 in CS by (rewrite Rabs_left; lra). lra. }
    assert (d * norm2 (tab T (fun t => W j t - V j t)) <= eps * norm2 (tab T (fun t => W j t - V j t))) by (apply Rmult_le_compat_r; [apply norm2_pos|auto]). lra. }
  lra.
Qed.
(** *** gap to the optimum of a returned model *)
Lemma loss1_nonneg l n y z : (1 <= n)%nat -> 0 <= loss1 l n y z.
Proof.
  intros Hn. pose proof (INR_npos n Hn) as HN. destruct l; cbn [loss1].
  - unfold quad_loss. apply Rmult_le_pos; [apply Sum_nonneg; intros; apply pow2_ge_0|left; apply Rinv_0_lt_compat; lra].
  - unfold logistic_loss. apply Rmult_le_pos; [apply Sum_nonneg|left; apply Rinv_0_lt_compat; lra]. intros i _.
    rewrite <- ln_1. left. apply ln_increasing; [lra|]. pose proof (exp_pos (- (y i * z i))). lra.
Qed.
Lemma quad_mt_nonneg n T Y Z : (1 <= n)%nat -> 0 <= quad_loss_mt n T Y Z.
Proof. intros Hn. pose proof (INR_npos n Hn) as HN. unfold quad_loss_mt. apply Rmult_le_pos; [|left; apply Rinv_0_lt_compat; lra]. apply Sum_nonneg. intros. apply Sum_nonneg. intros. apply pow2_ge_0. Qed.
Lemma gap_arith eps c ow ov o0 D Nw Nv : 0 <= eps -> 0 < c -> ow <= o0 -> c * Nw <= ow -> c * Nv <= ov -> 0 <= o0 -> D <= Nw + Nv -> ow <= ov + eps * D -> ow <= ov + 2 * eps * o0 / c.
Proof.
  intros He Hc H0 Hw Hv Hp HD H. assert (Hq : 0 <= 2 * eps * o0 / c) by (apply Rmult_le_pos; [apply Rmult_le_pos; lra|left; apply Rinv_0_lt_compat; auto]).
  destruct (Rle_dec o0 ov) as [|Hn]; [lra|].
  assert (eps * D <= 2 * eps * o0 / c); [|lra]. apply Rle_trans with (eps * (2 * (o0 / c))); [|right; field; lra]. apply Rmult_le_compat_l; auto.
  apply Rle_trans with (1 := HD). apply Rmult_le_reg_l with c; auto. replace (c * (2 * (o0 / c))) with (2 * o0) by (field; lra). lra.
Qed.
Lemma pen1_l1 k c u : pen1_range k -> l1_weight k c -> c * Rabs u <= pen1 k u.
Proof.
  destruct k as [a|a r|]; cbn [pen1_range l1_weight pen1]; [| |contradiction].
  - intros _ ->. unfold abs_pen. lra.
  - intros [Ha Hr] ->. unfold enet_pen. assert (0 <= a * ((1 - r) / 2 * u ^ 2)) by (apply Rmult_le_pos; auto; apply Rmult_le_pos; [lra|apply pow2_ge_0]). lra.
Qed.
Lemma pen1_0 k : pen1 k 0 = 0 \/ exists a g, k = McpPen a g.
Proof. destruct k as [a|a r|a g]; [left|left|right; eauto]; cbn [pen1]; unfold abs_pen, enet_pen; rewrite Rabs_R0; ring. Qed.
Lemma c28_gap l k c n p X y eps w v : (1 <= n)%nat -> pen1_range k -> l1_weight k c -> 0 < c -> 0 <= eps ->
  stationary eps (loss1 l n y) p X (pen1 k) w ->
  objective (loss1 l n y) p X (pen1 k) w <= objective (loss1 l n y) p X (pen1 k) (fun _ => 0) ->
  objective (loss1 l n y) p X (pen1 k) w <= objective (loss1 l n y) p X (pen1 k) v + 2 * eps * objective (loss1 l n y) p X (pen1 k) (fun _ => 0) / c.
Proof.
  intros Hn Hr Hw Hc He Hst H0. assert (Hcx : convex1 k) by (clear - Hw; destruct k; cbn in *; tauto).
  assert (B : forall u, c * Sum p (fun j => Rabs (u j)) <= objective (loss1 l n y) p X (pen1 k) u).
  { intros u. unfold objective. pose proof (loss1_nonneg l n y (lin p X u) Hn). rewrite <- Sum_scal.
    assert (Sum p (fun j => c * Rabs (u j)) <= Sum p (fun j => pen1 k (u j))) by (apply Sum_le; intros; apply pen1_l1; auto). lra. }
  apply (gap_arith eps c _ _ _ (Sum p (fun j => Rabs (w j - v j))) (Sum p (fun j => Rabs (w j))) (Sum p (fun j => Rabs (v j)))); auto.
  - apply Rle_trans with (2 := B (fun _ => 0)). rewrite Sum_zero; [lra|]. intros. apply Rabs_R0.
  - rewrite <- Sum_plus. apply Sum_le. intros. unfold Rminus. apply Rle_trans with (1 := Rabs_triang _ _). rewrite Rabs_Ropp. lra.
  - apply c28_single; auto.
Qed.
Lemma penT_l1 k c u : penT_range k -> l1_weight_mt k c -> c * norm2 u <= penT k u.
Proof.
  pose proof (norm2_pos u). destruct k as [a|a r|]; cbn [penT_range l1_weight_mt penT]; [| |contradiction].
  - intros _ ->. unfold abs_pen. rewrite Rabs_right; lra.
  - intros [Ha Hr] ->. unfold enet_pen. rewrite Rabs_right by lra. assert (0 <= a * ((1 - r) / 2 * norm2 u ^ 2)) by (apply Rmult_le_pos; auto; apply Rmult_le_pos; [lra|apply pow2_ge_0]). lra.
Qed.
Lemma c28_gap_mt k c n p T X Y eps W V : (1 <= n)%nat -> penT_range k -> l1_weight_mt k c -> 0 < c -> 0 <= eps ->
  stationary_mt eps (quad_loss_mt n T Y) p T X (penT k) W ->
  objective_mt (quad_loss_mt n T Y) p T X (penT k) W <= objective_mt (quad_loss_mt n T Y) p T X (penT k) (fun _ _ => 0) ->
  objective_mt (quad_loss_mt n T Y) p T X (penT k) W <= objective_mt (quad_loss_mt n T Y) p T X (penT k) V + 2 * eps * objective_mt (quad_loss_mt n T Y) p T X (penT k) (fun _ _ => 0) / c.
Proof.
  intros Hn Hr Hw Hc He Hst H0. assert (Hcx : convexT k) by (clear - Hw; destruct k; cbn in *; tauto).
  assert (B : forall U, c * Sum p (fun j => norm2 (tab T (U j))) <= objective_mt (quad_loss_mt n T Y) p T X (penT k) U).
  { intros U. unfold objective_mt. pose proof (quad_mt_nonneg n T Y (lin_mt p X U) Hn). rewrite <- Sum_scal.
    assert (Sum p (fun j => c * norm2 (tab T (U j))) <= Sum p (fun j => penT k (map (U j) (seq 0 T)))) by (apply Sum_le; intros; apply penT_l1; auto). lra. }
  apply (gap_arith eps c _ _ _ (Sum p (fun j => norm2 (tab T (fun t => W j t - V j t)))) (Sum p (fun j => norm2 (tab T (W j)))) (Sum p (fun j => norm2 (tab T (V j))))); auto.
  - apply Rle_trans with (2 := B (fun _ _ => 0)). apply Rmult_le_pos; [lra|]. apply Sum_nonneg. intros. apply norm2_pos.
  - rewrite <- Sum_plus. apply Sum_le. intros j Hj. rewrite <- vminus_tab. assert (Q := norm2_triang3 (tab T (W j)) (tab T (fun _ => 0)) (tab T (V j)) ltac:(rewrite !tab_length; auto) ltac:(rewrite !tab_length; auto)).
    rewrite (norm2_minus_sym (tab T (fun _ => 0))) in Q by (rewrite !tab_length; auto). rewrite !vminus_tab in Q.
    rewrite (tab_ext T (fun t => W j t - 0) (W j)), (tab_ext T (fun t => V j t - 0) (V j)) in Q by (intros; ring). rewrite vminus_tab. lra.
  - exact (c28_multi k n p T X Y eps W V Hn Hr Hcx Hst).
Qed.
Section F.
Context (srt : list xr -> list nat) (VS : valid_sort xops srt) (n p : nat) (Hn : (1 <= n)%nat).
Lemma c28_fit X y l k s fit c eps : single_fit srt n p X y l k s fit -> targets_ok l n y -> l1_weight k c -> 0 < c -> 0 <= eps ->
  forall m w, fit m = Ret (Ok (xv p w)) -> stationary eps (loss1 l n y) p X (pen1 k) w ->
  forall v, objective (loss1 l n y) p X (pen1 k) w <= objective (loss1 l n y) p X (pen1 k) v + 2 * eps * objective (loss1 l n y) p X (pen1 k) (fun _ => 0) / c.
Proof.
  intros HF Hy Hw Hc He m w Em Hst v. assert (HS : steps_ok Rle k l n p X) by (destruct k; cbn in *; tauto).
  destruct (inv1 srt VS n p Hn X y l k s fit HF Hy HS m _ Em) as (Hr & _). destruct (c25_single srt VS n p Hn X y l k s fit HF Hy HS m _ Em) as (w' & Ew & HO).
  apply c28_gap; auto. rewrite (objf_ext srt n p X y l k s fit HF Hy HS w w') by (apply xv_inj; auto). exact HO.
Qed.
Lemma c28_fit_mt T X Y k s fit c eps : multi_fit srt n p T X Y k s fit -> l1_weight_mt k c -> 0 < c -> 0 <= eps ->
  forall m W, fit m = Ret (Ok (xm p T W)) -> stationary_mt eps (quad_loss_mt n T Y) p T X (penT k) W ->
  forall V, objective_mt (quad_loss_mt n T Y) p T X (penT k) W <= objective_mt (quad_loss_mt n T Y) p T X (penT k) V + 2 * eps * objective_mt (quad_loss_mt n T Y) p T X (penT k) (fun _ _ => 0) / c.
Proof.
  intros HF Hw Hc He m W Em Hst V. assert (HS : steps_ok_mt Rle k n p X) by (destruct k; cbn in *; tauto).
  destruct (multi_run srt VS n p Hn T X Y k s fit HF) as [Hr _]. destruct (c25_multi srt VS n p Hn T X Y k s fit HF HS m _ Em) as (W' & EW & HO).
  apply c28_gap_mt; auto. apply Rle_trans with (2 := HO). right. assert (E := xm_inj p T W W' EW). unfold objective_mt. f_equal.
  - unfold quad_loss_mt. f_equal. apply Sum_ext. intros i Hi. apply Sum_ext. intros t Ht. f_equal. f_equal. unfold lin_mt. apply Sum_ext. intros j Hj. rewrite E; auto.
  - apply Sum_ext. intros j Hj. f_equal. apply (tab_ext T). intros t Ht. apply E; auto.
Qed.
Lemma c28_settles X y l k s fit tol c : single_fit srt n p X y l k s fit -> targets_ok l n y -> accepted fit -> s_tolerance s = Fin tol -> 0 < tol ->
  (1 <= s_ws_start_size s)%nat -> (1 <= s_max_epochs s)%nat ->
  calm_schedule (s_use_acceleration s) (s_K s) (s_max_epochs s) -> accel_safe (s_use_acceleration s) (s_K s) (Nat.min (s_ws_start_size s) p) (s_max_epochs s) ->
  l1_weight k c -> 0 < c ->
  settles p (fun w => forall v, objective (loss1 l n y) p X (pen1 k) w <= objective (loss1 l n y) p X (pen1 k) v + 2 * tol * objective (loss1 l n y) p X (pen1 k) (fun _ => 0) / c) fit.
Proof.
  intros HF Hy Ha Et Ht H1 H2 H3 H4 Hw Hc. assert (HS : steps_ok Rlt k l n p X) by (clear - Hw; destruct k; cbn in *; tauto).
  destruct (c27_single srt VS n p Hn X y l k s fit HF Hy HS tol Ha Et Ht H1 H2 H3 H4) as (N & w & Hst & Hall). exists N, w. split; auto.
  apply (c28_fit X y l k s fit c tol HF Hy Hw Hc ltac:(lra) N w); auto.
Qed.
Lemma c28_settles_mt T X Y a s fit tol : multi_fit srt n p T X Y (MtLassoPen a) s fit -> accepted fit -> s_tolerance s = Fin tol -> 0 < tol ->
  (1 <= s_ws_start_size s)%nat -> (1 <= s_max_epochs s)%nat ->
  calm_schedule (s_use_acceleration s) (s_K s) (s_max_epochs s) -> accel_safe (s_use_acceleration s) (s_K s) (Nat.min (s_ws_start_size s) p * T) (s_max_epochs s) ->
  settles_mt p T (fun W => forall V, objective_mt (quad_loss_mt n T Y) p T X (penT (MtLassoPen a)) W <=
    objective_mt (quad_loss_mt n T Y) p T X (penT (MtLassoPen a)) V + 2 * tol * objective_mt (quad_loss_mt n T Y) p T X (penT (MtLassoPen a)) (fun _ _ => 0) / a) fit.
Proof.
  intros HF Ha Et Ht H1 H2 H3 H4. destruct (c27_multi srt VS n p Hn T X Y a s fit HF tol Ha Et Ht H1 H2 H3 H4) as (N & W & Hst & Hall). exists N, W. split; auto.
  pose proof (proj1 (multi_run srt VS n p Hn T X Y _ s fit HF)) as Hr. apply (c28_fit_mt T X Y (MtLassoPen a) s fit a tol HF eq_refl Hr ltac:(lra) N W); auto.
Qed.
End F.
