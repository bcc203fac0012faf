(** Convergence of the multi-task elastic net and of Block MCP. *)
From Coq Require Import List ZArith Bool Arith Reals Lra Lia Classical.
From Verif Require Import Ops Arr XR SpecPen VecR MUtils MDatasets MDatafits MDatafitsMT MPenalties MBlockPenalties MCd MBcd MHyper MEstimators PBase RSum SpecLin SpecData SpecOpt SpecMore PDatafit PCalc PDataProps PAnderson SpecSolve PStruct PNoPanic PLaws PRef PRefPen PSim PFit PSubdiff PSubdiffBlock PSymProps PDescent PConv PTheory PFitOpt PConvTd.
Import ListNotations.
Open Scope R_scope.

(** *** the violation of a row *)
Definition tdT (k : multi_pen) (w g : list R) : R :=
  match k with
  | MtLassoPen a => r_l21_score a w g
  | MtEnetPen a r => if Reqb (norm2 w) 0 then Rmax 0 (norm2 g - a * r) else r_bl1l2_score a r w g
  | BlockMcpPen a gm => if Reqb (norm2 w) 0 then Rmax 0 (norm2 g - a)
      else if Rltb (norm2 w) (a * gm) then norm2 (vminus (vneg g) (vscale (a / norm2 w - 1 / gm) w)) else norm2 g
  end.
Lemma tdT_scores k T : penT_range k -> score_theory T (penT k) (tdT k).
Proof.
  intros Hr w g Hw Hg. destruct k as [a|a r|a gm]; cbn [penT_range] in Hr.
  - apply (l21_scores T a); auto. lra.
  - destruct Hr as (Ha & Hr & Har). apply is_vdist_ext with (S := vsubgrad T (benet_pen a r) w).
    { apply vsubgrad_ext. intros x. symmetry. apply enet_pen_norm. }
    cbn [tdT]. destruct (Reqb (norm2 w) 0) eqn:E; rb.
    + apply norm2_0_inv in E. rewrite Hw in E. rewrite E. apply benet_zero_dist; auto.
    + apply r_bl1l2_score_dist; auto.
  - destruct Hr as (Ha & Hgm). change (is_vdist (vsubgrad T (bmcp_pen a gm) w) (vneg g) (tdT (BlockMcpPen a gm) w g)). cbn [tdT].
    pose proof (r_bmcp_score_dist T a gm w g Hw Hg Ha Hgm) as Q. unfold r_bmcp_score in Q.
    destruct (Reqb (norm2 w) 0) eqn:E; rb; [apply Q; auto|]. destruct (Rltb (norm2 w) (a * gm)) eqn:E2; rb; [apply bmcp_mid_dist; auto|apply Q; auto].
Qed.
Definition slopeT (k : multi_pen) : R := match k with MtLassoPen a => a | MtEnetPen a r => a * r | BlockMcpPen a _ => a end.
Definition curvT (k : multi_pen) : R := match k with MtEnetPen a r => a * (1 - r) | _ => 0 end.
Lemma tdT_zero k T g : tdT k (repeat 0 T) g = Rmax 0 (norm2 g - slopeT k).
Proof. destruct k; cbn [tdT slopeT]; unfold r_l21_score; rewrite norm2_0, Reqb_refl; reflexivity. Qed.
Lemma tdT_grad k w g : penT_range k -> length w = length g -> norm2 g <= tdT k w g + slopeT k + curvT k * norm2 w.
Proof.
  intros Hr Hl. pose proof (norm2_pos w) as Hw.
  assert (TR : forall z, norm2 g <= norm2 (vminus (vneg g) (vscale z w)) + Rabs z * norm2 w).
  { intros z. rewrite <- norm2_scale, <- norm2_vneg, Rplus_comm. apply norm2_triang. rewrite vneg_length, vscale_length. auto. }
  assert (MX : forall s, norm2 g <= Rmax 0 (norm2 g - s) + s) by (intros s; pose proof (Rmax_r 0 (norm2 g - s)); lra).
  destruct k as [a|a r|a gm]; cbn [penT_range tdT slopeT curvT] in *; unfold r_l21_score, r_bl1l2_score.
  - destruct (Reqb (norm2 w) 0) eqn:E; rb; [specialize (MX a); lra|]. specialize (TR (a / norm2 w)).
    rewrite Rabs_right in TR by (apply Rle_ge; apply Rmult_le_pos; [lra|left; apply Rinv_0_lt_compat; lra]). replace (a / norm2 w * norm2 w) with a in TR by (field; auto). lra.
  - destruct Hr as (Ha & Hr & Har). assert (0 <= a * (1 - r)) by (apply Rmult_le_pos; lra).
    destruct (Reqb (norm2 w) 0) eqn:E; rb; [specialize (MX (a * r)); rewrite E; lra|]. specialize (TR (a * (r / norm2 w + (1 - r)))).
    assert (0 < / norm2 w) by (apply Rinv_0_lt_compat; lra).
    rewrite Rabs_right in TR by (apply Rle_ge; apply Rmult_le_pos; [lra|]; assert (0 <= r / norm2 w) by (apply Rmult_le_pos; lra); lra).
    replace (a * (r / norm2 w + (1 - r)) * norm2 w) with (a * r + a * (1 - r) * norm2 w) in TR by (field; auto). lra.
  - destruct Hr as (Ha & Hg). destruct (Reqb (norm2 w) 0) eqn:E; rb; [specialize (MX a); lra|]. destruct (Rltb (norm2 w) (a * gm)) eqn:E2; rb; [|lra].
    specialize (TR (a / norm2 w - 1 / gm)). assert (Hz : (a / norm2 w - 1 / gm) * norm2 w = a - norm2 w / gm) by (field; lra).
    assert (H1 : 0 <= norm2 w / gm) by (apply Rmult_le_pos; [lra|left; apply Rinv_0_lt_compat; lra]).
    assert (H2 : norm2 w / gm < a) by (apply Rmult_lt_reg_r with gm; auto; unfold Rdiv; rewrite Rmult_assoc, Rinv_l by lra; lra).
    rewrite Rabs_right in TR. { rewrite Hz in TR. lra. }
    apply Rle_ge. apply Rmult_le_reg_r with (norm2 w); [lra|]. rewrite Hz. lra.
Qed.
(** the displacement of a proximal step is a subgradient where it lands *)
Lemma prox_subgrad T prox pv okstep c v s : pen_theory T prox pv okstep c -> length v = T -> 0 < s -> okstep s ->
  vsubgrad T pv (prox v s) (tab T (fun t => (nth t v 0 - nth t (prox v s) 0) / s)).
Proof.
  intros PT Hv Hs0 Hs. destruct (pt_min _ _ _ _ _ PT v s Hv Hs) as [Hu Q]. set (u := prox v s) in *. split; [apply tab_length|].
  exists (1 / (2 * s)). split; [left; apply Rdiv_lt_0_compat; lra|]. intros x Hx. specialize (Q x Hx). cbv beta in Q. pose proof (pt_c _ _ _ _ _ PT _ Hs) as Hc.
  pose proof (pow2_ge_0 (norm2 (vminus x u))) as Hsq. assert (Q' := Rmult_le_pos _ _ Hc Hsq).
  assert (Q2 : norm2 (vminus u v) ^ 2 / 2 + s * pv u <= norm2 (vminus x v) ^ 2 / 2 + s * pv x) by lra. clear Q Q' Hc Hsq.
  assert (Ev : forall a b, length a = T -> length b = T -> vminus a b = tab T (fun t => nth t a 0 - nth t b 0)) by (intros a b Ha Hb; rewrite (tab_nth_len T b 0 Hb) at 1; rewrite vminus_tab_r; auto).
  rewrite !Ev, !norm2_tab in Q2 by auto. rewrite !Ev by auto. rewrite !dotp_tab.
  assert (E1 : Sum T (fun t => (nth t x 0 - nth t v 0) ^ 2) = Sum T (fun t => (nth t u 0 - nth t v 0) ^ 2) + Sum T (fun t => (nth t x 0 - nth t u 0) * (nth t x 0 - nth t u 0))
      - 2 * s * Sum T (fun t => (nth t v 0 - nth t u 0) / s * (nth t x 0 - nth t u 0))).
  { rewrite <- Sum_scal, <- Sum_plus, <- Sum_minus. apply Sum_ext. intros. field. lra. }
  rewrite E1 in Q2. set (D := Sum T (fun t => (nth t x 0 - nth t u 0) * (nth t x 0 - nth t u 0))) in *. set (F := Sum T (fun t => (nth t v 0 - nth t u 0) / s * (nth t x 0 - nth t u 0))) in *.
  apply Rmult_le_reg_l with s; auto. replace (s * (pv u + F - 1 / (2 * s) * D)) with (s * pv u + s * F - D / 2) by (field; lra). lra.
Qed.
Lemma tdT_moves k T L : penT_range k -> 0 < L -> okstepT k (1 / L) -> zero_moves T (proxT k) (tdT k) L (L + curvT k).
Proof.
  intros Hr HL Hok g Hg. rewrite tdT_zero. assert (Hs : 0 < 1 / L) by (apply Rdiv_lt_0_compat; lra).
  set (v := tab T (fun t => 0 - nth t g 0 / L)). assert (PT := penT_theory k T Hr).
  assert (Hv : length v = T) by apply tab_length. pose proof (prox_subgrad T _ _ _ _ v (1 / L) PT Hv Hs Hok) as SG.
  destruct (pt_min _ _ _ _ _ PT v (1 / L) Hv Hok) as [Hu _]. set (u := proxT k v (1 / L)) in *. set (q := tab T (fun t => (nth t v 0 - nth t u 0) / (1 / L))) in *.
  assert (Hq : length q = T) by apply tab_length. assert (Hvq : length (vneg q) = T) by (rewrite vneg_length; auto).
  destruct (tdT_scores k T Hr u (vneg q) Hu Hvq) as [S1 _]. specialize (S1 q SG).
  assert (E0 : norm2 (vminus (vneg (vneg q)) q) = 0).
  { unfold q. rewrite !vneg_tab, vminus_tab. rewrite (tab_zero _ _) by (intros; ring). apply norm2_0. }
  rewrite E0 in S1. pose proof (tdT_grad k u (vneg q) Hr ltac:(congruence)) as GB. rewrite norm2_vneg in GB.
  assert (Gq : norm2 g <= norm2 q + L * norm2 u).
  { rewrite <- (norm2_vneg g). replace (L * norm2 u) with (norm2 (vminus (vneg g) q)).
    - apply norm2_triang. rewrite vneg_length. congruence.
    - transitivity (norm2 (vscale L u)); [|rewrite norm2_scale, Rabs_right by lra; reflexivity]. f_equal. rewrite (tab_nth_len T g 0 Hg), vneg_tab. unfold q. rewrite vminus_tab.
      transitivity (vscale L (tab T (fun t => nth t u 0))); [rewrite vscale_tab|f_equal; symmetry; apply tab_nth_len; auto].
      apply tab_ext. intros t Ht. unfold v. rewrite nth_tab by auto. field. lra. }
  assert (HC : 0 <= curvT k) by (destruct k as [|a r|]; cbn [curvT penT_range] in *; try lra; destruct Hr as (? & ? & _); apply Rmult_le_pos; lra).
  pose proof (norm2_pos u) as Hup. apply Rmax_lub; [apply Rmult_le_pos; lra|]. lra.
Qed.

Section S.
Variables (srt : list xr -> list nat) (VS : valid_sort xops srt) (n p : nat) (Hn : (1 <= n)%nat).
Lemma stationary_mt_iff T k X Y W eps : penT_range k ->
  (stationary_mt eps (quad_loss_mt n T Y) p T X (penT k) W <-> forall j, (j < p)%nat -> tdT k (tab T (W j)) (tab T (gq n X Y (lin_mt p X W) j)) <= eps).
Proof.
  intros Hr. assert (SC := tdT_scores k T Hr). split.
  - intros H j Hj. destruct (H j Hj) as (d & (g & Dg & Hd) & Hle).
    assert (Eg : forall t, (t < T)%nat -> g t = gq n X Y (lin_mt p X W) j t) by (intros t Ht; eapply uniqueness_limite; [apply Dg; auto|apply quad_mt_deriv; auto]).
    assert (Q := SC (tab T (W j)) (tab T (gq n X Y (lin_mt p X W) j)) (tab_length _ _) (tab_length _ _)). rewrite vneg_tab in Q.
    change (map (fun t => - g t) (seq 0 T)) with (tab T (fun t => - g t)) in Hd. rewrite (tab_ext T (fun t => - g t) (fun t => - gq n X Y (lin_mt p X W) j t)) in Hd by (intros; rewrite Eg; auto).
    rewrite (is_vdist_unique _ _ _ _ Q Hd). auto.
  - intros H j Hj. exists (tdT k (tab T (W j)) (tab T (gq n X Y (lin_mt p X W) j))). split; auto. exists (gq n X Y (lin_mt p X W) j).
    split; [intros; apply quad_mt_deriv; auto|]. assert (Q := SC (tab T (W j)) (tab T (gq n X Y (lin_mt p X W) j)) (tab_length _ _) (tab_length _ _)). rewrite vneg_tab in Q. exact Q.
Qed.
Section Many.
Variables (T : nat) (X Y : rmat) (k : multi_pen) (s : solver xr) (fit : nat -> res (result (mat xr) (estimator_error xr))).
Hypotheses (HF : multi_fit srt n p T X Y k s fit) (HS : steps_ok_mt Rlt k n p X).
Let PB := probT k n p T X Y.
Let Hr : penT_range k := proj1 (multi_run srt VS n p Hn T X Y k s fit HF).
Let Hgo := proj2 (multi_run srt VS n p Hn T X Y k s fit HF).
Let HSle : steps_ok_mt Rle k n p X.
Proof. destruct k; auto. intros j Hj Hx. left. apply HS; auto. Qed.
Let DT : data_theory PB := quad_data n p T X Y (proxT k) (penT k) (distT k) Hn.
Let PT : pen_theory (pT PB) (pprox PB) (ppv PB) (okstepT k) (cT k) := penT_theory k T Hr.
Let HL : forall j, (j < pp PB)%nat -> pL PB j <> 0 -> okstepT k (1 / pL PB j) := probT_steps n p Hn k T X Y HSle.
Lemma probT_c j : (j < p)%nat -> live PB j -> 0 < cT k (1 / pL PB j).
Proof.
  intros Hj Hl. assert (H0 := da_L PB DT j). assert (HLp : 0 < pL PB j) by (unfold live in Hl; lra). unfold PB in *. clear PT HL Hgo. destruct k as [a|a r|a g]; cbn [cT]; [lra| |].
  - destruct Hr as (Ha & Hr' & _). assert (0 <= 1 / pL (probT (MtEnetPen a r) n p T X Y) j * ((1 - r) * a)) by (apply Rmult_le_pos; [left; apply Rdiv_lt_0_compat; lra|apply Rmult_le_pos; lra]). lra.
  - destruct Hr as (Ha & Hg). assert (Hx : exists i, (i < n)%nat /\ X i j <> 0) by (apply (Lq_live n X Hn); exact Hl). specialize (HS j Hj Hx).
    rewrite curv_Lq in HS. destruct (step_lt g (Lq n X j) HLp HS) as [S0 S1]. change (pL (probT (BlockMcpPen a g) n p T X Y) j) with (Lq n X j).
    apply Rlt_Rminus. apply Rmult_lt_reg_r with g; auto. unfold Rdiv at 1. rewrite Rmult_assoc, Rinv_l by lra. lra.
Qed.
Lemma probT_fine tol eps : accepted fit -> s_tolerance s = Fin tol -> 0 < eps -> (1 <= s_ws_start_size s)%nat -> (1 <= s_max_epochs s)%nat ->
  calm_schedule (s_use_acceleration s) (s_K s) (s_max_epochs s) -> accel_safe (s_use_acceleration s) (s_K s) (Nat.min (s_ws_start_size s) p * T) (s_max_epochs s) ->
  (forall g g', length g = T -> length g' = T -> distT k (repeat 0 T) g <= distT k (repeat 0 T) g' -> tdT k (repeat 0 T) g' <= eps -> fine PB (tdT k) tol eps (repeat 0 T) g) ->
  exists N, forall m, (N <= m)%nat -> exists st, rsolve PB srt (Fin tol) (s_K s) (s_use_acceleration s) (s_ws_start_size s) (s_max_epochs s) m = Ret st /\ fit m = Ret (Ok (xm p T (fst st))) /\ fitted PB st /\ allfine PB (tdT k) tol eps st.
Proof.
  intros Hacc Et Heps Hw Hme Hcal Hsafe Hcmp. destruct Hgo as [(e & He)|Hg]; [exfalso; apply (Hacc 0%nat e); auto|].
  destruct (solve_fine PB (tdT k) _ _ srt VS DT PT (tdT_scores k T Hr) HL) with (tol := tol) (eps := eps) (K := s_K s) (acc := s_use_acceleration s) (ws0 := s_ws_start_size s) (me := s_max_epochs s) as (N & HN); auto.
  - exists (Hbound n p X). split; [apply Hbound_nonneg; auto|]. intros. apply (quad_lip n p T X Y); auto.
  - intros j Hj Hl. apply probT_c; auto.
  - intros j Hj Hl. exists (pL PB j + curvT k). apply tdT_moves; auto. pose proof (da_L PB DT j). unfold live in Hl. lra.
  - eapply calm_of; eauto.
  - exists N. intros m Hm. destruct (HN m Hm) as (st & Er & Hf). exists st. split; auto.
    split; [rewrite Hg; unfold goT, runT; fold PB; rewrite Et, Er; reflexivity|]. split; auto.
    apply (solve_inv PB _ _ srt VS DT PT HL _ _ _ _ _ _ _ Er).
Qed.
Lemma fit_final tol m m' st : s_tolerance s = Fin tol -> (m <= m')%nat -> accepted fit -> rsolve PB srt (Fin tol) (s_K s) (s_use_acceleration s) (s_ws_start_size s) (s_max_epochs s) m = Ret st ->
  done PB tol st -> fit m' = Ret (Ok (xm p T (fst st))).
Proof.
  intros Et Hm Hacc Er Hd. destruct Hgo as [(e & He)|Hg]; [exfalso; apply (Hacc 0%nat e); auto|]. rewrite Hg. unfold goT, runT. fold PB. rewrite Et.
  replace m' with (m + (m' - m))%nat by lia. rewrite (solve_final PB srt tol _ _ _ _ _ _ _ Er); auto.
Qed.
Lemma td_fitted st j : (j < p)%nat -> fitted PB st -> rdist (with_dist PB (tdT k)) (fst st) (snd st) j = tdT k (tab T (fst st j)) (tab T (gq n X Y (lin_mt p X (fst st)) j)).
Proof.
  intros Hj Hf. unfold rdist, row. cbn [with_dist PB probT mtP pdist pT pg]. f_equal. apply tab_ext. intros t Ht. unfold gq. f_equal. f_equal. apply Sum_ext. intros i Hi. f_equal. f_equal. apply (Hf i t Hi Ht).
Qed.
Lemma row_fitted st j : (j < p)%nat -> fitted PB st -> row PB (pg PB (snd st)) j = tab T (gq n X Y (lin_mt p X (fst st)) j).
Proof.
  intros Hj Hf. unfold row. cbn [PB probT mtP pT pg]. apply tab_ext. intros t Ht. unfold gq. f_equal. f_equal. apply Sum_ext. intros i Hi. f_equal. f_equal. apply (Hf i t Hi Ht).
Qed.
Lemma small_of W j eps : (j < p)%nat -> tdT k (tab T (W j)) (tab T (gq n X Y (lin_mt p X W) j)) <= eps -> small_violation eps (quad_loss_mt n T Y) p T X (penT k) W j.
Proof.
  intros Hj H. exists (tdT k (tab T (W j)) (tab T (gq n X Y (lin_mt p X W) j))). split; auto. exists (gq n X Y (lin_mt p X W) j).
  split; [intros; apply quad_mt_deriv; auto|]. assert (Q := tdT_scores k T Hr (tab T (W j)) (tab T (gq n X Y (lin_mt p X W) j)) (tab_length _ _) (tab_length _ _)). rewrite vneg_tab in Q. exact Q.
Qed.
End Many.

Lemma zero_row_norm T W j : zero_row T W j <-> norm2 (tab T (W j)) = 0.
Proof.
  split.
  - intros H. rewrite tab_zero by exact H. apply norm2_0.
  - intros H t Ht. apply norm2_0_inv in H. rewrite tab_length in H. apply (f_equal (fun l => nth t l 0)) in H. rewrite nth_tab in H by auto. rewrite H. apply nth_repeat.
Qed.
(** *** elastic net *)
Section Enet.
Variables (T : nat) (X Y : rmat) (a r : R) (s : solver xr) (fit : nat -> res (result (mat xr) (estimator_error xr))).
Hypotheses (HF : multi_fit srt n p T X Y (MtEnetPen a r) s fit).
Let k := MtEnetPen a r.
Let PB := probT k n p T X Y.
Let Hr : penT_range k := proj1 (multi_run srt VS n p Hn T X Y k s fit HF).
Lemma enet_zero_score g : distT k (repeat 0 T) g = Rmax 0 (norm2 g ^ 2 - a * r).
Proof. cbn [k distT]. unfold r_bl1l2_score. rewrite norm2_0, Reqb_refl. reflexivity. Qed.
Lemma enet_cmp tol eps g g' : 0 <= tol -> distT k (repeat 0 T) g <= distT k (repeat 0 T) g' -> tdT k (repeat 0 T) g' <= eps -> fine PB (tdT k) tol eps (repeat 0 T) g.
Proof.
  intros Ht. unfold fine. change (pdist PB) with (distT k). rewrite !enet_zero_score, !tdT_zero. cbn [slopeT k]. intros H1 H2.
  destruct (Rle_dec (norm2 g ^ 2 - a * r) 0) as [L|L]; [left; apply Rmax_lub; lra|]. right. apply Rnot_le_lt in L. rewrite (Rmax_right 0 (norm2 g ^ 2 - a * r)) in H1 by lra.
  unfold Rmax in H1. destruct (Rle_dec 0 (norm2 g' ^ 2 - a * r)); [|lra]. assert (H3 : norm2 g ^ 2 <= norm2 g' ^ 2) by lra.
  assert (H4 : norm2 g <= norm2 g') by (apply Rsqr_incr_0_var; [unfold Rsqr; lra|apply norm2_pos]). apply Rle_trans with (2 := H2). apply Rle_max_compat_l. lra.
Qed.
Lemma enet_done_criterion tol st : fitted PB st -> done PB tol st -> enet_mt_criterion tol (quad_loss_mt n T Y) p T X (penT k) (fst st) (a * r).
Proof.
  intros Hf Hd j Hj. specialize (Hd j Hj). destruct st as [W Z]. unfold PB in Hd. rewrite probT_dist in Hd by auto. cbn [fst snd] in *. rewrite zero_row_norm. cbn [distT k] in Hd. unfold r_bl1l2_score in Hd. split.
  - intros E. rewrite E, Reqb_refl in Hd. exists (gq n X Y (lin_mt p X W) j). split; [intros t Ht; apply quad_mt_deriv; auto|].
    pose proof (Rmax_r 0 (norm2 (tab T (gq n X Y (lin_mt p X W) j)) ^ 2 - a * r)) as Q. rewrite norm2_tab in Q. rewrite norm2_tab in Hd. lra.
  - intros E. apply (small_of T X Y k s fit HF); auto. cbn [tdT k]. unfold r_bl1l2_score. rewrite (proj2 (Reqb_false _ _) E) in *. auto.
Qed.
Hypotheses (tol : R) (Hacc : accepted fit) (Et : s_tolerance s = Fin tol) (Htol : 0 < tol) (Hw : (1 <= s_ws_start_size s)%nat) (Hme : (1 <= s_max_epochs s)%nat)
  (Hcal : calm_schedule (s_use_acceleration s) (s_K s) (s_max_epochs s)) (Hsafe : accel_safe (s_use_acceleration s) (s_K s) (Nat.min (s_ws_start_size s) p * T) (s_max_epochs s)).
Lemma enet_settles : a * r <= 1 -> settles_mt p T (fun W => enet_mt_criterion tol (quad_loss_mt n T Y) p T X (penT k) W (a * r)) fit.
Proof.
  intros Har. set (eps := Rmin (tol / 3) 1). assert (H1 : eps <= tol / 3) by apply Rmin_l. assert (H2 : eps <= 1) by apply Rmin_r. assert (H3 : 0 < eps) by (apply Rmin_pos; lra).
  destruct (probT_fine T X Y k s fit HF I tol eps Hacc Et H3 Hw Hme Hcal Hsafe) as (N & HN). { intros g g' _ _. apply enet_cmp. lra. }
  destruct (HN N (le_n _)) as (st & Er & Ev & Hf & Hfine). assert (Hd : done PB tol st).
  { destruct Hfine as [Hd|Hfine]; auto. intros j Hj. destruct (Hfine j Hj) as [Q1 Q2]. unfold rdist.
    destruct (rnz PB (fst st) j) eqn:E.
    - assert (Q1' : tdT k (row PB (fst st) j) (row PB (pg PB (snd st)) j) <= eps) by exact (Q1 E). apply nz_row_true in E. change (pdist PB) with (distT k). cbn [tdT distT k] in *.
      assert (E' : norm2 (row PB (fst st) j) <> 0). { intros E'. apply E. apply norm2_0_inv in E'. rewrite row_len in E'. exact E'. }
      rewrite (proj2 (Reqb_false _ _) E') in Q1'. apply Rle_trans with (1 := Q1'). lra.
    - destruct (Q2 E) as [Q|Q]; auto. apply nz_row in E. change (pT PB) with T in E. rewrite E. change (pdist PB) with (distT k). rewrite enet_zero_score.
      assert (Q' : tdT k (row PB (fst st) j) (row PB (pg PB (snd st)) j) <= eps) by exact Q. clear Q. rename Q' into Q. rewrite E, tdT_zero in Q. cbn [slopeT k] in Q.
      set (g := row PB (pg PB (snd st)) j) in *. pose proof (norm2_pos g) as Hg. pose proof (Rmax_r 0 (norm2 g - a * r)) as Q3. destruct Hr as (_ & _ & Har0).
      apply Rmax_lub; [lra|]. assert (Hle : norm2 g <= a * r + eps) by lra. assert (norm2 g ^ 2 <= (a * r + eps) ^ 2) by (apply pow_incr; lra).
      assert (eps * eps <= eps * 1) by (apply Rmult_le_compat_l; lra). assert ((a * r) * (a * r) <= (a * r) * 1) by (apply Rmult_le_compat_l; lra). assert (eps * (a * r) <= eps * 1) by (apply Rmult_le_compat_l; lra). nra. }
  exists N, (fst st). split; [apply enet_done_criterion; auto|]. intros m Hm. eapply fit_final; eauto.
Qed.
Lemma enet_eventually : 1 <= a * r -> eventually_mt p T (stationary_mt tol (quad_loss_mt n T Y) p T X (penT k)) fit.
Proof.
  intros Har. destruct (probT_fine T X Y k s fit HF I tol tol Hacc Et Htol Hw Hme Hcal Hsafe) as (N & HN). { intros g g' _ _. apply enet_cmp. lra. }
  exists N. intros m Hm. destruct (HN m Hm) as (st & Er & Ev & Hf & Hfine). exists (fst st). split; auto. apply (stationary_mt_iff T k X Y (fst st) tol Hr).
  assert (Z0 : forall w g, norm2 w = 0 -> length w = T -> distT k w g <= tol -> tdT k w g <= tol).
  { intros w g Ew Hlw. apply norm2_0_inv in Ew. rewrite Hlw in Ew. rewrite Ew, enet_zero_score, tdT_zero. cbn [slopeT k]. intros Q. pose proof (Rmax_r 0 (norm2 g ^ 2 - a * r)) as Q3. pose proof (norm2_pos g) as Hg. apply Rmax_lub; [lra|].
    apply Rnot_lt_le. intros Hlt. assert (Q4 : (a * r + tol) ^ 2 <= norm2 g ^ 2) by (apply pow_incr; lra). assert ((a * r + tol) * 1 <= (a * r + tol) * (a * r + tol)) by (apply Rmult_le_compat_l; lra).
    assert (Q5 : norm2 g ^ 2 <= a * r + tol) by lra. assert (Q6 : (a * r + tol) * (a * r + tol) < norm2 g * norm2 g) by (apply Rmult_le_0_lt_compat; lra). nra. }
  intros j Hj. rewrite <- (td_fitted T X Y k st j Hj Hf). fold PB. destruct Hfine as [Hd|Hfine].
  - specialize (Hd j Hj). unfold rdist in *. cbn [with_dist pdist]. change (row (with_dist PB (tdT k))) with (row PB). change (pg (with_dist PB (tdT k))) with (pg PB). change (pdist PB) with (distT k) in Hd.
    destruct (Req_dec (norm2 (row PB (fst st) j)) 0) as [E|E]; [apply Z0; auto; apply row_len|]. cbn [tdT distT k] in *. rewrite (proj2 (Reqb_false _ _) E). auto.
  - destruct (Hfine j Hj) as [Q1 Q2]. destruct (rnz PB (fst st) j) eqn:E; [auto|]. destruct (Q2 E) as [Q|Q].
    + change (tdT k (row PB (fst st) j) (row PB (pg PB (snd st)) j) <= tol). apply nz_row in E. apply Z0; auto; [rewrite E; apply norm2_0|apply row_len].
    + exact Q.
Qed.
End Enet.
(** *** Block MCP *)
Section BlockMcp.
Variables (T : nat) (X Y : rmat) (a gm : R) (s : solver xr) (fit : nat -> res (result (mat xr) (estimator_error xr))).
Hypotheses (HF : multi_fit srt n p T X Y (BlockMcpPen a gm) s fit) (HS : gamma_ok Rlt gm Squared n p X).
Let k := BlockMcpPen a gm.
Let PB := probT k n p T X Y.
Let Hr : penT_range k := proj1 (multi_run srt VS n p Hn T X Y k s fit HF).
Lemma bmcp_done_criterion tol st : fitted PB st -> done PB tol st -> block_mcp_criterion tol (quad_loss_mt n T Y) p T X (penT k) (fst st) a gm.
Proof.
  intros Hf Hd j Hj. specialize (Hd j Hj). destruct st as [W Z]. unfold PB in Hd. rewrite probT_dist in Hd by auto. cbn [fst snd] in *. cbn [distT k] in Hd. unfold r_bmcp_score in Hd.
  change (map (W j) (seq 0 T)) with (tab T (W j)). cbv zeta. set (w := tab T (W j)) in *. split.
  - intros [E1 E2]. rewrite (proj2 (Reqb_false _ _)) in Hd by lra. rewrite (proj2 (Rltb_spec _ _)) in Hd by lra. rewrite norm2_scale in Hd. destruct Hr as [_ Hg].
    apply Rle_trans with (2 := Hd). replace (a - norm2 w / gm) with ((a / norm2 w - 1 / gm) * norm2 w) by (field; lra). apply Rmult_le_compat_r; [lra|apply Rle_abs].
  - intros E. apply (small_of T X Y k s fit HF); auto. fold w. cbn [tdT k]. destruct (Reqb (norm2 w) 0) eqn:E1; auto. rb. destruct (Rltb (norm2 w) (a * gm)) eqn:E2; auto. rb. lra.
Qed.
Lemma bmcp_eventually tol : accepted fit -> s_tolerance s = Fin tol -> 0 < tol -> (1 <= s_ws_start_size s)%nat -> (1 <= s_max_epochs s)%nat ->
  calm_schedule (s_use_acceleration s) (s_K s) (s_max_epochs s) -> accel_safe (s_use_acceleration s) (s_K s) (Nat.min (s_ws_start_size s) p * T) (s_max_epochs s) ->
  settles_mt p T (fun W => block_mcp_criterion tol (quad_loss_mt n T Y) p T X (penT k) W a gm) fit \/
  eventually_mt p T (stationary_mt tol (quad_loss_mt n T Y) p T X (penT k)) fit.
Proof.
  intros Hacc Et Htol Hw Hme Hcal Hsafe. destruct (probT_fine T X Y k s fit HF HS tol tol Hacc Et Htol Hw Hme Hcal Hsafe) as (N & HN).
  { intros g g' _ _ H1 H2. right. rewrite tdT_zero in *. cbn [distT k] in H1. unfold r_bmcp_score in H1. rewrite norm2_0, Reqb_refl in H1. apply Rle_trans with (1 := H1). exact H2. }
  destruct (classic (exists m st, rsolve PB srt (Fin tol) (s_K s) (s_use_acceleration s) (s_ws_start_size s) (s_max_epochs s) m = Ret st /\ fitted PB st /\ done PB tol st)) as [(m & st & Er & Hf & Hd)|Hnone].
  - left. exists m, (fst st). split; [apply bmcp_done_criterion; auto|]. intros m' Hm. eapply fit_final; eauto.
  - right. exists N. intros m Hm. destruct (HN m Hm) as (st & Er & Ev & Hf & Hfine). exists (fst st). split; auto. apply (stationary_mt_iff T k X Y (fst st) tol Hr).
    destruct Hfine as [Hd|Hfine]; [exfalso; apply Hnone; eauto|]. intros j Hj. rewrite <- (td_fitted T X Y k st j Hj Hf). fold PB. destruct (Hfine j Hj) as [Q1 Q2]. fold PB in Q1.
    destruct (rnz PB (fst st) j) eqn:E; [auto|]. destruct (Q2 E) as [Q|Q]; [|exact Q].
    change (tdT k (row PB (fst st) j) (row PB (pg PB (snd st)) j) <= tol). apply nz_row in E. change (pT PB) with T in E. rewrite E. rewrite tdT_zero.
    assert (Q' : distT k (row PB (fst st) j) (row PB (pg PB (snd st)) j) <= tol) by exact Q. clear Q. rename Q' into Q. rewrite E in Q. cbn [distT k] in Q. unfold r_bmcp_score in Q. rewrite norm2_0, Reqb_refl in Q. exact Q.
Qed.
End BlockMcp.
End S.
