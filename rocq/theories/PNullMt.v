(** Multi-task elastic net and the null model: the score of a zero row compares the squared
    gradient norm with the threshold, so fits stop at zero although zero is not optimal. *)
From Coq Require Import List ZArith Bool Arith Reals Lra Lia.
From Verif Require Import Ops Arr XR SpecPen VecR MUtils MDatasets MDatafits MDatafitsMT MCd MBcd MHyper MEstimators PBase RSum SpecLin SpecData PDatafit PCalc PDataProps PLin PAnderson SpecSolve PStruct PNoPanic PLaws PRef PRefPen PSim PFit PPenVal PSubdiff PSubdiffBlock PSymProps PDescent PConv PTheory SpecOpt PFitOpt PCert PStrict SpecNull PNullFit.
Import ListNotations.
Open Scope R_scope.

Section S.
Variables (srt : list xr -> list nat) (VS : valid_sort xops srt) (n p : nat) (Hn : (1 <= n)%nat).
Let HN : 0 < INR n := INR_npos n Hn.
Variables (T : nat) (X Y : rmat).
Lemma enet_mt_stops a r s fit tol : multi_fit srt n p T X Y (MtEnetPen a r) s fit -> s_tolerance s = Fin tol -> 0 <= tol -> accepted fit ->
  (forall j, (j < p)%nat -> (xty_norm n T X Y j / INR n) ^ 2 <= a * r + tol) -> forall m, fit m = Ret (Ok (xm p T (fun _ _ => 0))).
Proof.
  intros HF Et Htol Hacc Hle m. destruct (multi_run srt VS n p Hn T X Y _ s fit HF) as [Hr [(e & He)|Hgo]]; [exfalso; apply (Hacc 0%nat e); auto|].
  rewrite Hgo. unfold goT, runT. rewrite Et. replace m with (0 + m)%nat by lia.
  rewrite (solve_final (probT (MtEnetPen a r) n p T X Y) srt tol _ _ _ _ 0 m (fun _ _ => 0, fun _ _ => 0)); [reflexivity|reflexivity|].
  intros j Hj. cbn [fst snd]. rewrite probT_dist; auto; [|apply start_fitted]. rewrite tab_zero by auto. cbn [distT]. unfold r_bl1l2_score. rewrite norm2_0, Reqb_refl, gradT0 by auto.
  specialize (Hle j Hj). apply Rmax_lub; lra.
Qed.

(** size of a penalty near zero *)
Lemma penT_small k : penT_range k -> exists C, 0 <= C /\ forall v, penT k v <= slope_mt k * norm2 v + C * norm2 v ^ 2.
Proof using.
  intros Hr. destruct k as [a|a r|a g]; cbn [penT penT_range slope_mt] in *.
  - exists 0. split; [lra|]. intros v. unfold abs_pen. rewrite Rabs_right by (apply Rle_ge, norm2_pos). lra.
  - exists (a * ((1 - r) / 2)). split; [apply Rmult_le_pos; lra|]. intros v. unfold enet_pen. rewrite Rabs_right by (apply Rle_ge, norm2_pos). lra.
  - exists 0. split; [lra|]. intros v. assert (Q := mcp_pen_lipschitz a g (norm2 v) 0 (proj1 Hr) (proj2 Hr)). rewrite mcp_pen_0, !Rminus_0_r in Q by lra.
    rewrite (Rabs_right (norm2 v)) in Q by (apply Rle_ge, norm2_pos). pose proof (Rle_abs (mcp_pen a g (norm2 v))). lra.
Qed.
Lemma penT_zero k : penT_range k -> penT k (repeat 0 T) = 0.
Proof using. intros Hr. destruct k; cbn [penT penT_range] in *; rewrite norm2_0; [unfold abs_pen; rewrite Rabs_R0; ring|unfold enet_pen; rewrite Rabs_R0; ring|apply mcp_pen_0; lra]. Qed.
Lemma small_step G sl C : 0 <= sl < G -> 0 <= C -> exists e, 0 < e /\ - e * G ^ 2 + sl * (e * G) + C * (e * G) ^ 2 < 0.
Proof using.
  intros Hs HC. exists ((G - sl) / (2 * (C + 1) * G)). assert (HG : 0 < G) by lra. assert (0 < (G - sl) / (2 * (C + 1) * G)) by (apply Rdiv_lt_0_compat; [lra|]; apply Rmult_lt_0_compat; lra).
  split; auto. replace (- ((G - sl) / (2 * (C + 1) * G)) * G ^ 2 + sl * ((G - sl) / (2 * (C + 1) * G) * G) + C * ((G - sl) / (2 * (C + 1) * G) * G) ^ 2)
    with (- ((G - sl) ^ 2 * (C + 2) / (4 * (C + 1) ^ 2))) by (field; lra).
  assert (0 < (G - sl) ^ 2 * (C + 2) / (4 * (C + 1) ^ 2)); [|lra]. apply Rdiv_lt_0_compat; [apply Rmult_lt_0_compat; [apply pow_lt; lra|lra]|]. assert (0 < (C + 1) ^ 2) by (apply pow_lt; lra). lra.
Qed.
Lemma zero_not_optimal_mt k am : penT_range k -> reported_alpha_max_mt n p T X Y am -> slope_mt k < am ->
  exists W, objective_mt (quad_loss_mt n T Y) p T X (penT k) W < objective_mt (quad_loss_mt n T Y) p T X (penT k) (fun _ _ => 0).
Proof using Hn HN.
  intros Hr Ham Hlt. destruct (largest_div n p (xty_norm n T X Y) Hn) as [_ H2]. rewrite <- (am_value_mt n p T X Y am Hn Ham) in *.
  assert (Hs : 0 <= slope_mt k) by (destruct k; cbn [slope_mt penT_range] in *; lra). destruct H2 as (j & Hj & E); [lra|]. rewrite xty_norm_abs in E.
  destruct (penT_small k Hr) as (C & HC & HP). set (g := fun t => gq n X Y (lin_mt p X (fun _ _ => 0)) j t). assert (HG : norm2 (tab T g) = am) by (unfold g; rewrite gradT0; auto).
  assert (HL : 0 <= Lq n X j) by (apply Lq_nonneg; auto).
  destruct (small_step am (slope_mt k) (C + Lq n X j / 2) ltac:(lra) ltac:(lra)) as (e & He & Hneg).
  set (d := fun t => - e * g t). exists (fun j' t => if (j' =? j)%nat then d t else 0).
  assert (HD : norm2 (tab T d) = e * am). { unfold d. rewrite <- vscale_tab, norm2_scale, HG, Rabs_left by lra. ring. }
  unfold objective_mt.
  assert (Q : quad_loss_mt n T Y (lin_mt p X (fun j' t => if (j' =? j)%nat then d t else 0)) = quad_loss_mt n T Y (shift X (lin_mt p X (fun _ _ => 0)) j d)).
  { unfold quad_loss_mt. f_equal. apply Sum_ext. intros i _. apply Sum_ext. intros t _. f_equal. f_equal. unfold shift, lin_mt.
    rewrite (Sum_zero p (fun j0 => X i j0 * 0)) by (intros; ring). rewrite (Sum_single p _ j) by (auto; intros i0 _ Hi; apply Nat.eqb_neq in Hi; rewrite Hi; ring). rewrite Nat.eqb_refl. ring. }
  rewrite Q, quad_move by auto. fold g.
  rewrite (Sum_zero p (fun j0 => penT k (map (fun _ => 0) (seq 0 T)))).
  2:{ intros j0 _. change (map (fun _ => 0) (seq 0 T)) with (tab T (fun _ => 0)). rewrite tab_zero by auto. apply penT_zero; auto. }
  rewrite (Sum_single p _ j); auto.
  2:{ intros i _ Hi. apply Nat.eqb_neq in Hi. rewrite Hi. change (map (fun _ => 0) (seq 0 T)) with (tab T (fun _ => 0)). rewrite tab_zero by auto. apply penT_zero; auto. }
  rewrite Nat.eqb_refl. change (map (fun t => d t) (seq 0 T)) with (tab T d). specialize (HP (tab T d)). rewrite HD in HP.
  assert (S1 : Sum T (fun t => gq n X Y (lin_mt p X (fun _ _ => 0)) j t * d t) = - e * am ^ 2).
  { rewrite <- HG, norm2_tab, <- Sum_scal. apply Sum_ext. intros t _. unfold d, g. ring. }
  assert (S2 : Sum T (fun t => d t ^ 2) = (e * am) ^ 2) by (rewrite <- norm2_tab, HD; reflexivity).
  rewrite S1, S2. lra.
Qed.
End S.
