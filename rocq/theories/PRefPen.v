(** The penalties as used by the reference solver. *)
From Coq Require Import List ZArith Bool Arith Reals Lra Lia.
From Verif Require Import Ops Arr XR SpecPen VecR MUtils MPenalties MBlockPenalties PProx PProxBlock PSubdiff PSubdiffBlock PPenVal PBase RSum SpecLin PData PRef PRefCD PRefBCD.
Import ListNotations.
Open Scope R_scope.

(** facts about a penalty on which descent rests *)
Record pen_theory (T : nat) (prox : list R -> R -> list R) (pv : list R -> R) (okstep : R -> Prop) (c : R -> R) : Prop := {
  pt_c : forall s, okstep s -> 0 <= c s;
  pt_min : forall v s, length v = T -> okstep s -> vstrong_min T (c s) (fun x => norm2 (vminus x v) ^ 2 / 2 + s * pv x) (prox v s);
  pt_nonneg : forall v, 0 <= pv v;
  pt_zero : pv (repeat 0 T) = 0
}.
(** scores are distances to the subdifferential *)
Definition score_theory (T : nat) (pv : list R -> R) (dist : list R -> list R -> R) : Prop :=
  forall w g, length w = T -> length g = T -> is_vdist (vsubgrad T pv w) (vneg g) (dist w g).

(** *** single-task penalties *)
Definition lprox (prox : R -> R -> R) (v : list R) (s : R) : list R := map (fun x => prox x s) v.
Definition lpv (pv : R -> R) (v : list R) : R := pv (nth 0 v 0).
Definition ldist (dist : R -> R -> R) (v h : list R) : R := dist (nth 0 v 0) (nth 0 h 0).

Lemma norm2_1 x : norm2 [x] = Rabs x.
Proof. unfold norm2. simpl. rewrite Rplus_0_r. apply sqrt_Rsqr_abs. Qed.
Lemma len1 {A} (l : list A) : length l = 1%nat -> exists x, l = [x].
Proof. destruct l as [|x [|]]; try discriminate. eauto. Qed.
Lemma sq_abs x : Rabs x ^ 2 = x ^ 2.
Proof. rewrite <- !Rsqr_pow2. symmetry. apply Rsqr_abs. Qed.

Lemma theory1 prox pv (okstep : R -> Prop) c : (forall s, okstep s -> 0 <= c s) ->
  (forall v s, okstep s -> strong_min (c s) (prox_obj (fun x => s * pv x) v) (prox v s)) ->
  (forall x, 0 <= pv x) -> pv 0 = 0 -> pen_theory 1 (lprox prox) (lpv pv) okstep c.
Proof.
  intros Hc Hm Hp H0. constructor; auto.
  - intros v s Hv Hs. destruct (len1 v Hv) as (x & ->). split; [reflexivity|]. intros y Hy. destruct (len1 y Hy) as (z & ->).
    cbn [lprox map vminus]. rewrite !norm2_1, !sq_abs. unfold lpv. cbn [nth]. specialize (Hm x s Hs z). unfold prox_obj in Hm. cbv beta in Hm. lra.
  - intros v. apply Hp.
Qed.
Lemma score1 pv dist : (forall w g, is_dist (subgrad pv w) (- g) (dist w g)) -> score_theory 1 (lpv pv) (ldist dist).
Proof.
  intros H w g Hw Hg. destruct (len1 w Hw) as (x & ->), (len1 g Hg) as (h & ->). unfold ldist. cbn [nth]. destruct (H x h) as [H1 (s & H2 & H3)]. split.
  - intros l [Hl (m & Hm & Hq)]. destruct (len1 l Hl) as (s' & ->). simpl. rewrite norm2_1. apply H1. exists m. split; auto.
    intros y. specialize (Hq [y] eq_refl). unfold lpv in Hq. simpl in Hq. nra.
  - exists [s]. simpl. rewrite norm2_1. split; auto. destruct H2 as (m & Hm & Hq). split; auto. exists m. split; auto.
    intros l Hl. destruct (len1 l Hl) as (y & ->). unfold lpv. simpl. specialize (Hq y). nra.
Qed.
Lemma scores_ref (score : xr -> xr -> xr) rs p w G ws : (forall x h, score (Fin x) (Fin h) = Fin (rs x h)) -> (forall j, In j ws -> (j < p)%nat) ->
  scores xops score (xv p w) (map (fun j => Fin (G j)) ws) ws
  = Ret (map (fun j => Fin (rs (w j) (G j))) ws, fold_max xops NInf (map (fun j => Fin (rs (w j) (G j))) ws)).
Proof.
  intros Hs Hin. unfold scores. rewrite combine_map_l.
  assert (E : forall l, (forall j, In j l -> (j < p)%nat) ->
    mapM (fun p0 => wj <- vget (xv p w) (snd p0) ;; Ret (score wj (fst p0))) (map (fun a => (Fin (G a), a)) l) = Ret (map (fun j => Fin (rs (w j) (G j))) l)).
  { induction l as [|a l IH]; intros Hl; [reflexivity|]. cbn [map mapM fst snd]. rewrite vget_xv by (apply Hl; left; auto). cbn [bind]. rewrite Hs.
    rewrite IH by (intros; apply Hl; right; auto). reflexivity. }
  rewrite E by auto. reflexivity.
Qed.
Lemma xv_map p w : xv p w = map Fin (tab p w).
Proof. symmetry. apply map_tab. Qed.

Lemma l1_pen_ok a : pen_ok (l1_penalty xops) (L1 (Fin a)) (fun v s => rsoft v (a * s)) (abs_pen a) (r_l1_score a) (fun s => 0 < s).
Proof.
  constructor.
  - intros p w. cbn [pen_value l1_penalty]. rewrite xv_map, l1_value_fin, map_tab. reflexivity.
  - intros v s _. cbn [pen_prox l1_penalty]. unfold l1_prox. cbn [l1_alpha].
    change (fmul xops (Fin a) (Fin s)) with (Fin (a * s)). apply soft_fin.
  - intros p w G ws Hin. apply scores_ref; auto. intros. apply l1_score_fin.
Qed.
Definition enet_prox (a r v s : R) : R := rsoft v (r * a * s) / (1 + s * (1 - r) * a).
Lemma enet_prox_fin a r v s : 0 < s -> 0 <= a -> 0 <= r <= 1 ->
  pen_prox (l1l2_penalty xops) (L1PlusL2 (Fin a) (Fin r)) (Fin v) (Fin s) = Fin (enet_prox a r v s).
Proof.
  intros Hs Ha Hr. assert (Hc : 1 + s * (1 - r) * a > 0) by (assert (0 <= s * (1 - r)) by nra; nra).
  cbn [pen_prox l1l2_penalty]. unfold l1l2_prox. cbn [en_alpha en_l1_ratio].
  change (fmul xops (fmul xops (Fin r) (Fin a)) (Fin s)) with (Fin (r * a * s)).
  rewrite soft_fin. cbn. rewrite (proj2 (Reqb_false _ _)); [reflexivity | lra].
Qed.
Lemma l1l2_pen_ok a r : 0 <= a -> 0 <= r <= 1 ->
  pen_ok (l1l2_penalty xops) (L1PlusL2 (Fin a) (Fin r)) (enet_prox a r) (enet_pen a r) (r_l1l2_score a r) (fun s => 0 < s).
Proof.
  intros Ha Hr. constructor.
  - intros p w. cbn [pen_value l1l2_penalty]. rewrite xv_map, l1l2_value_fin, map_tab. reflexivity.
  - intros v s Hs. apply enet_prox_fin; auto.
  - intros p w G ws Hin. apply scores_ref; auto. intros. apply l1l2_score_fin.
Qed.
Lemma mcp_pen_ok a g : 0 < g ->
  pen_ok (mcp_penalty xops) (MCP (Fin a) (Fin g)) (fun v s => rmcp_prox a g s v) (mcp_pen a g) (r_mcp_score a g) (fun s => 0 < s).
Proof.
  intros Hg. constructor.
  - intros p w. cbn [pen_value mcp_penalty]. rewrite xv_map, mcp_value_fin, map_tab by auto. reflexivity.
  - intros v s Hs. apply mcp_prox_fin; lra.
  - intros p w G ws Hin. apply scores_ref; auto. intros. apply mcp_score_fin. lra.
Qed.
Lemma fin_inj a b : Fin a = Fin b -> a = b.
Proof. congruence. Qed.
Lemma l1_theory a : 0 <= a -> pen_theory 1 (lprox (fun v s => rsoft v (a * s))) (lpv (abs_pen a)) (fun s => 0 < s) (fun _ => 1).
Proof.
  intros Ha. apply theory1.
  - intros. lra.
  - intros v s Hs. destruct (l1_prox_min v s a Hs Ha) as (u & E & H). rewrite (po_prox _ _ _ _ _ _ (l1_pen_ok a)) in E by auto. injection E as <-. exact H.
  - intros. apply abs_pen_nonneg; auto.
  - apply abs_pen_0.
Qed.
Lemma l1_scores a : 0 <= a -> score_theory 1 (lpv (abs_pen a)) (ldist (r_l1_score a)).
Proof. intros Ha. apply score1. intros. apply r_l1_score_dist; auto. Qed.
Lemma l1l2_theory a r : 0 <= a -> 0 <= r <= 1 ->
  pen_theory 1 (lprox (enet_prox a r)) (lpv (enet_pen a r)) (fun s => 0 < s) (fun s => 1 + s * (1 - r) * a).
Proof.
  intros Ha Hr. apply theory1.
  - intros s Hs. assert (0 <= s * (1 - r)) by nra. nra.
  - intros v s Hs. destruct (l1l2_prox_min v s a r Hs Ha Hr) as (u & E & H). rewrite enet_prox_fin in E by auto. injection E as <-. exact H.
  - intros. apply enet_pen_nonneg; auto.
  - apply enet_pen_0.
Qed.
Lemma l1l2_scores a r : 0 <= a -> 0 <= r <= 1 -> score_theory 1 (lpv (enet_pen a r)) (ldist (r_l1l2_score a r)).
Proof. intros Ha Hr. apply score1. intros. apply r_l1l2_score_dist; auto. Qed.
Lemma mcp_theory a g : 0 <= a -> 0 < g ->
  pen_theory 1 (lprox (fun v s => rmcp_prox a g s v)) (lpv (mcp_pen a g)) (fun s => 0 < s <= g) (fun s => 1 - s / g).
Proof.
  intros Ha Hg. apply theory1.
  - intros s Hs. assert (s / g <= 1); [|lra]. apply Rmult_le_reg_r with g; auto. unfold Rdiv. rewrite Rmult_assoc, Rinv_l by lra. lra.
  - intros v s Hs. apply rmcp_prox_min; lra.
  - intros. apply mcp_pen_nonneg; auto.
  - apply mcp_pen_0; auto.
Qed.
Lemma mcp_scores a g : 0 <= a -> 0 < g -> score_theory 1 (lpv (mcp_pen a g)) (ldist (r_mcp_score a g)).
Proof. intros Ha Hr. apply score1. intros. apply r_mcp_score_dist; auto. Qed.

(** *** block penalties: the real proximal operator is the finite part of the coded one *)
Definition bprox {P} (pen : PenaltyMT xr P) (q : P) (v : list R) (s : R) : list R := map toR (bpen_prox pen q (map Fin v) (Fin s)).
Definition npv (phi : R -> R) (v : list R) : R := phi (norm2 v).
Lemma toR_Fin u : map toR (map Fin u) = u.
Proof. rewrite map_map. apply map_id. Qed.
Lemma bprox_min {P} (pen : PenaltyMT xr P) q T v s c phi :
  (exists u, bpen_prox pen q (map Fin v) (Fin s) = map Fin u /\ vstrong_min T c (vprox_obj (fun x => s * phi x) v) u) ->
  bpen_prox pen q (map Fin v) (Fin s) = map Fin (bprox pen q v s) /\ vstrong_min T c (fun x => norm2 (vminus x v) ^ 2 / 2 + s * npv phi x) (bprox pen q v s).
Proof. intros (u & E & H). unfold bprox. rewrite E, toR_Fin. auto. Qed.
Lemma bscores_ref T (score : list xr -> list xr -> xr) rs p W G ws :
  (forall x h, length x = T -> length h = T -> score (map Fin x) (map Fin h) = Fin (rs x h)) -> (forall j, In j ws -> (j < p)%nat) ->
  bscores xops score (xm p T W) (Mat (length ws) T (map (fun j => xv T (G j)) ws)) ws
  = Ret (map (fun j => Fin (rs (tab T (W j)) (tab T (G j)))) ws, fold_max xops NInf (map (fun j => Fin (rs (tab T (W j)) (tab T (G j)))) ws)).
Proof.
  intros Hs Hin. unfold bscores. cbn [mrows]. rewrite combine_map_l.
  assert (E : forall l, (forall j, In j l -> (j < p)%nat) ->
    mapM (fun p0 => Wj <- mrow (xm p T W) (snd p0) ;; Ret (score Wj (fst p0))) (map (fun a => (xv T (G a), a)) l) = Ret (map (fun j => Fin (rs (tab T (W j)) (tab T (G j)))) l)).
  { induction l as [|a l IH]; intros Hl; [reflexivity|]. cbn [map mapM fst snd]. unfold xm. rewrite mrow_tabm by (apply Hl; left; auto). cbn [bind].
    change (tab T (fun j => Fin (W a j))) with (xv T (W a)). rewrite !xv_map. rewrite Hs by apply tab_length.
    unfold xm in IH. rewrite IH by (intros; apply Hl; right; auto). reflexivity. }
  rewrite E by auto. reflexivity.
Qed.
Lemma xm_rows p T W : xm p T W = Mat p T (map (map Fin) (tab p (fun i => tab T (W i)))).
Proof. unfold xm, tabm. f_equal. rewrite map_tab. apply tab_ext. intros. symmetry. apply map_tab. Qed.

Lemma l21_pen_ok T a : 0 < a ->
  bpen_ok T (l21_penalty xops) (L21 (Fin a)) (bprox (l21_penalty xops) (L21 (Fin a))) (npv (abs_pen a)) (r_l21_score a) (fun s => 0 < s).
Proof.
  intros Ha. constructor.
  - intros p W. cbn [bpen_value l21_penalty]. rewrite xm_rows, l21_value_fin, map_tab. reflexivity.
  - intros v s Hv Hs. destruct (l21_prox_min T v s a Hv Hs ltac:(lra) ltac:(right; lra)) as (u & E & HL & _).
    unfold bprox. rewrite E, toR_Fin. auto.
  - intros p W G ws Hin. apply bscores_ref; auto. intros. apply l21_score_fin. lia.
Qed.
Lemma abs_pen_norm a v : abs_pen a (norm2 v) = a * norm2 v.
Proof. unfold abs_pen. rewrite Rabs_right; auto. apply Rle_ge, norm2_pos. Qed.
Lemma enet_pen_norm a r v : enet_pen a r (norm2 v) = a * (r * norm2 v + (1 - r) / 2 * norm2 v ^ 2).
Proof. unfold enet_pen. rewrite Rabs_right; auto. apply Rle_ge, norm2_pos. Qed.
Lemma vmin_ext T c h h' u : (forall x, h x = h' x) -> vstrong_min T c h u -> vstrong_min T c h' u.
Proof. intros E [H1 H2]. split; auto. intros x Hx. rewrite <- !E. auto. Qed.
Lemma l21_theory T a : 0 < a ->
  pen_theory T (bprox (l21_penalty xops) (L21 (Fin a))) (npv (abs_pen a)) (fun s => 0 < s) (fun _ => 1).
Proof.
  intros Ha. constructor.
  - intros. lra.
  - intros v s Hv Hs. destruct (l21_prox_min T v s a Hv Hs ltac:(lra) ltac:(right; lra)) as (u & E & H).
    unfold bprox. rewrite E, toR_Fin. eapply vmin_ext; [|exact H]. intros x. unfold vprox_obj, npv. rewrite abs_pen_norm. reflexivity.
  - intros v. apply abs_pen_nonneg. lra.
  - unfold npv. rewrite norm2_0. apply abs_pen_0.
Qed.
Lemma is_vdist_ext (S S' : list R -> Prop) z d : (forall s, S s <-> S' s) -> is_vdist S z d -> is_vdist S' z d.
Proof. intros E [H1 (s & H2 & H3)]. split; [intros x Hx; apply H1, E; auto|exists s; split; auto; apply E; auto]. Qed.
Lemma vsubgrad_ext T phi phi' w : (forall x, phi x = phi' x) -> forall s, vsubgrad T phi w s <-> vsubgrad T phi' w s.
Proof.
  intros E s. unfold vsubgrad. split; intros [H (m & Hm & Hq)]; split; auto; exists m; split; auto; intros x Hx; specialize (Hq x Hx); rewrite !E in *; auto.
Qed.
Lemma l21_scores T a : 0 <= a -> score_theory T (npv (abs_pen a)) (r_l21_score a).
Proof.
  intros Ha w g Hw Hg. eapply is_vdist_ext; [|apply (r_l21_score_dist T); auto]. intros s. apply vsubgrad_ext. intros x. symmetry. apply abs_pen_norm.
Qed.
Lemma bl1l2_pen_ok T a r : 0 <= a -> 0 <= r <= 1 -> 0 < a * r ->
  bpen_ok T (bl1l2_penalty xops) (BlockL1PlusL2 (Fin a) (Fin r)) (bprox (bl1l2_penalty xops) (BlockL1PlusL2 (Fin a) (Fin r)))
    (npv (enet_pen a r)) (r_bl1l2_score a r) (fun s => 0 < s).
Proof.
  intros Ha Hr Har. constructor.
  - intros p W. cbn [bpen_value bl1l2_penalty]. rewrite xm_rows, bl1l2_value_fin, map_tab. reflexivity.
  - intros v s Hv Hs. destruct (bl1l2_prox_min T v s a r Hv Hs Ha Hr ltac:(right; lra)) as (u & E & HL & _).
    unfold bprox. rewrite E, toR_Fin. auto.
  - intros p W G ws Hin. apply bscores_ref; auto. intros. apply bl1l2_score_fin. lia.
Qed.
Lemma bl1l2_theory T a r : 0 <= a -> 0 <= r <= 1 -> 0 < a * r ->
  pen_theory T (bprox (bl1l2_penalty xops) (BlockL1PlusL2 (Fin a) (Fin r))) (npv (enet_pen a r)) (fun s => 0 < s) (fun s => 1 + s * (1 - r) * a).
Proof.
  intros Ha Hr Har. constructor.
  - intros s Hs. assert (0 <= s * (1 - r)) by nra. nra.
  - intros v s Hv Hs. destruct (bl1l2_prox_min T v s a r Hv Hs Ha Hr ltac:(right; lra)) as (u & E & H).
    unfold bprox. rewrite E, toR_Fin. eapply vmin_ext; [|exact H]. intros x. unfold vprox_obj, npv. rewrite enet_pen_norm. reflexivity.
  - intros v. apply enet_pen_nonneg; auto.
  - unfold npv. rewrite norm2_0. apply enet_pen_0.
Qed.
Lemma bmcp_prox_fin a g s v : 0 < s -> 0 <= a -> 0 < g ->
  bpen_prox (bmcp_penalty xops) (BlockMCP (Fin a) (Fin g)) (map Fin v) (Fin s) = map Fin (bprox (bmcp_penalty xops) (BlockMCP (Fin a) (Fin g)) v s).
Proof.
  intros Hs Ha Hg. destruct (Rle_lt_dec s g) as [H|H].
  - destruct (bmcp_prox_min (length v) v s a g eq_refl Hs Ha H) as (u & E & _). unfold bprox. rewrite E, toR_Fin. auto.
  - unfold bprox. cbn [bpen_prox bmcp_penalty]. unfold bmcp_prox, rownorm. cbn [ndot fsqrt xops]. cbv zeta.
    rewrite xdot_dotp, xsqrt_norm. cbn [bmcp_alpha bmcp_gamma fmul fdiv xops]. rewrite xdiv_fin by lra. cbn [fle flt fmul xops xmul xle xlt].
    destruct (Rleb (norm2 v) (a * s)) eqn:E1.
    + unfold vzeros. rewrite map_length. cbn [f0 xops]. rewrite !map_repeat. reflexivity.
    + rb. replace (g / s * (a * s)) with (g * a) by (field; lra). rewrite (proj2 (Rltb_spec (g * a) (norm2 v))) by nra. rewrite toR_Fin. auto.
Qed.
Lemma bmcp_pen_ok T a g : 0 <= a -> 0 < g ->
  bpen_ok T (bmcp_penalty xops) (BlockMCP (Fin a) (Fin g)) (bprox (bmcp_penalty xops) (BlockMCP (Fin a) (Fin g)))
    (npv (mcp_pen a g)) (r_bmcp_score a g) (fun s => 0 < s).
Proof.
  intros Ha Hg. constructor.
  - intros p W. cbn [bpen_value bmcp_penalty]. rewrite xm_rows, bmcp_value_fin, map_tab by auto. reflexivity.
  - intros v s Hv Hs. rewrite bmcp_prox_fin by auto. split; auto.
    unfold bprox. rewrite map_length. cbn [bpen_prox bmcp_penalty]. unfold bmcp_prox. cbv zeta.
    destruct (fle _ _ _); [unfold vzeros; rewrite repeat_length, map_length; auto|]. destruct (flt _ _ _); rewrite ?map_length; auto.
  - intros p W G ws Hin. apply bscores_ref; auto. intros. apply bmcp_score_fin. lra.
Qed.
Lemma bmcp_theory T a g : 0 <= a -> 0 < g ->
  pen_theory T (bprox (bmcp_penalty xops) (BlockMCP (Fin a) (Fin g))) (npv (mcp_pen a g)) (fun s => 0 < s <= g) (fun s => 1 - s / g).
Proof.
  intros Ha Hg. constructor.
  - intros s Hs. assert (s / g <= 1); [|lra]. apply Rmult_le_reg_r with g; auto. unfold Rdiv. rewrite Rmult_assoc, Rinv_l by lra. lra.
  - intros v s Hv Hs. destruct (bmcp_prox_min T v s a g Hv (proj1 Hs) Ha (proj2 Hs)) as (u & E & H).
    unfold bprox. rewrite E, toR_Fin. exact H.
  - intros v. apply mcp_pen_nonneg; auto.
  - unfold npv. rewrite norm2_0. apply mcp_pen_0; auto.
Qed.
