(** The null model over the reals: above the reported threshold every fit is zero, below it zero
    is not optimal and is never returned by a fit with at least one iteration. *)
From Coq Require Import List ZArith Bool Arith Reals Lra Lia.
From Verif Require Import Ops Arr XR SpecPen VecR MUtils MDatasets MDatafits MDatafitsMT MCd MBcd MHyper MEstimators PBase RSum SpecLin SpecData PDatafit PCalc PDataProps PLin PAnderson SpecSolve PStruct PNoPanic PLaws PRef PRefPen PSim PFit PSubdiff PSubdiffBlock PSymProps PDescent PConv PTheory SpecOpt PFitOpt PCert PStrict SpecNull.
Import ListNotations.
Open Scope R_scope.

Lemma am_value n p X y am : (1 <= n)%nat -> reported_alpha_max n p X y am -> am = maxabs p (xty n X y) / INR n.
Proof.
  intros Hn [H|(E & c & HC & -> & H)].
  - rewrite alpha_max_dense in H by auto. injection H. auto.
  - rewrite (alpha_max_sparse n p E c y Hn HC) in H. injection H. auto.
Qed.
Lemma am_value_mt n p T X Y am : (1 <= n)%nat -> reported_alpha_max_mt n p T X Y am -> am = maxabs p (xty_norm n T X Y) / INR n.
Proof. intros Hn H. unfold reported_alpha_max_mt in H. rewrite alpha_max_mtl in H by auto. injection H. auto. Qed.
Lemma largest_div n p f : (1 <= n)%nat -> (forall j, (j < p)%nat -> Rabs (f j) / INR n <= maxabs p f / INR n) /\
  (0 < maxabs p f / INR n -> exists j, (j < p)%nat /\ Rabs (f j) / INR n = maxabs p f / INR n).
Proof.
  intros Hn. pose proof (INR_npos n Hn) as HN. destruct (maxabs_largest p f) as [H1 H2]. split.
  - intros j Hj. apply Rmult_le_compat_r; [left; apply Rinv_0_lt_compat; auto|auto].
  - intros Hpos. destruct H2 as [(j & Hj & E)|[E0 E]]; [exists j; split; auto; rewrite <- E; auto|]. exfalso. rewrite E in Hpos. unfold Rdiv in Hpos. rewrite Rmult_0_l in Hpos. lra.
Qed.

Section S.
Variables (srt : list xr -> list nat) (VS : valid_sort xops srt) (n p : nat) (Hn : (1 <= n)%nat).
Let HN : 0 < INR n := INR_npos n Hn.
Lemma dist1_0 k g : dist1 k 0 g = Rmax 0 (Rabs g - slope k).
Proof. destruct k; cbn [dist1 slope]; unfold r_l1_score, r_l1l2_score, r_mcp_score; rewrite Reqb_refl; reflexivity. Qed.
Lemma distT_0 T k g : match k with MtEnetPen _ _ => False | _ => True end -> distT k (repeat 0 T) g = Rmax 0 (norm2 g - slope_mt k).
Proof. destruct k; cbn [distT slope_mt]; try contradiction; intros _; unfold r_l21_score, r_bmcp_score; rewrite norm2_0, Reqb_refl; reflexivity. Qed.
Lemma grad0 X y j : Rabs (dloss1 n p Squared X y (fun _ => 0) j) = Rabs (xty n X y j) / INR n.
Proof.
  cbn [dloss1]. unfold gq. rewrite (Sum_zero n (fun i => X i j * lin p X (fun _ => 0) i)).
  - fold (xty n X y j). unfold Rdiv. rewrite Rabs_mult, Rminus_0_l, Rabs_Ropp, (Rabs_right (/ INR n)) by (left; apply Rinv_0_lt_compat; auto). reflexivity.
  - intros i _. unfold lin. rewrite Sum_zero by (intros; ring). ring.
Qed.
Lemma gradT0 T X Y j : norm2 (tab T (gq n X Y (lin_mt p X (fun _ _ => 0)) j)) = xty_norm n T X Y j / INR n.
Proof.
  rewrite (tab_ext T _ (fun t => / INR n * - Sum n (fun i => X i j * Y i t))).
  - rewrite <- vscale_tab, norm2_scale, (Rabs_right (/ INR n)) by (left; apply Rinv_0_lt_compat; auto). unfold Rdiv. rewrite Rmult_comm. f_equal.
    apply Rsqr_inj; [apply norm2_pos|apply sqrt_pos|]. unfold xty_norm. rewrite Rsqr_sqrt by (apply Sum_nonneg; intros; apply pow2_ge_0).
    rewrite Rsqr_pow2, norm2_tab. apply Sum_ext. intros. ring.
  - intros t _. unfold gq. rewrite (Sum_zero n (fun i => X i j * lin_mt p X (fun _ _ => 0) i t)).
    + unfold Rdiv. ring.
    + intros i _. unfold lin_mt. rewrite Sum_zero by (intros; ring). ring.
Qed.
Lemma xty_norm_abs T X Y j : Rabs (xty_norm n T X Y j) = xty_norm n T X Y j.
Proof. apply Rabs_right. apply Rle_ge, sqrt_pos. Qed.

(** *** single task *)
Section One.
Variables (X : rmat) (y : nat -> R) (k : single_pen) (am : R).
Hypotheses (Ham : reported_alpha_max n p X y am).
Lemma zero_iff eps : pen1_range k -> 0 <= eps -> (stationary eps (loss1 Squared n y) p X (pen1 k) (fun _ => 0) <-> am <= slope k + eps).
Proof.
  intros Hr He. rewrite stationary_iff by auto. destruct (largest_div n p (xty n X y) Hn) as [H1 H2]. rewrite <- (am_value n p X y am Hn Ham) in *. split.
  - intros H. destruct (Rle_dec am (slope k + eps)) as [|Hno]; auto. exfalso.
    assert (Hs : 0 <= slope k) by (destruct k; cbn [slope pen1_range] in *; try lra; apply Rmult_le_pos; lra).
    destruct H2 as (j & Hj & E); [lra|]. specialize (H j Hj). rewrite dist1_0, grad0, E in H. pose proof (Rmax_r 0 (am - slope k)). lra.
  - intros H j Hj. rewrite dist1_0, grad0. specialize (H1 j Hj). apply Rmax_lub; lra.
Qed.
(** below the threshold some coefficient vector is better than zero *)
Lemma zero_not_optimal : pen1_range k -> steps_ok Rlt k Squared n p X -> slope k < am ->
  exists w, objective (loss1 Squared n y) p X (pen1 k) w < objective (loss1 Squared n y) p X (pen1 k) (fun _ => 0).
Proof.
  intros Hr HS Hlt. set (PB := prob1 Squared k n p X y). set (st0 := (fun _ _ => 0, fun _ _ => 0) : rmat * rmat).
  destruct (largest_div n p (xty n X y) Hn) as [_ H2]. rewrite <- (am_value n p X y am Hn Ham) in *.
  assert (Hs : 0 <= slope k) by (destruct k; cbn [slope pen1_range] in *; try lra; apply Rmult_le_pos; lra).
  destruct H2 as (j & Hj & E); [lra|].
  assert (DT : data_theory PB) by (apply prob1_data; cbn; auto). assert (PT := prob1_pen n p Squared k X y Hr). fold PB in PT.
  assert (HL : forall j, (j < pp PB)%nat -> pL PB j <> 0 -> okstep1 k (1 / pL PB j)) by (unfold PB; rewrite prob1_p; apply prob1_steps; auto; apply steps_lt_le; auto).
  assert (SC : score_theory (pT PB) (ppv PB) (pdist PB)) by (apply (pen1_scores k Hr)).
  assert (HD : 0 < rdist PB (fst st0) (snd st0) j).
  { unfold PB. rewrite prob1_dist; auto; [|apply start_fitted]. cbn [fst st0]. rewrite dist1_0, grad0, E. pose proof (Rmax_r 0 (am - slope k)). lra. }
  assert (Hl : live PB j).
  { intros E0. assert (rdist PB (fst st0) (snd st0) j <= 0); [|lra]. apply (dist_dead PB _ _ DT PT SC); auto. }
  assert (HX : exists H, 0 <= H /\ forall Z i j d, (i < pp PB)%nat -> (j < pp PB)%nat -> norm2 (vminus (row PB (pg PB (shift (pX PB) Z i d)) j) (row PB (pg PB Z) j)) <= H * norm2 (tab (pT PB) d)).
  { exists (Hbound n p X). split; [apply Hbound_nonneg; auto|]. intros Z i j' d Hi Hj'. apply (quad_lip n p 1 X (fun i _ => y i) (lprox (prox1 k)) (lpv (pen1 k)) (ldist (dist1 k))); auto. }
  assert (HK : forall j, (j < pp PB)%nat -> live PB j -> 0 < c1 k (1 / pL PB j)).
  { intros j' Hj' Hl'.
    refine (prob1_c srt n p Hn X y Squared k (Solver 1 1 1 (Fin 0) 1 false false) _ (solve_quad_dense srt n p X y k _ (quadratic_new xops) (T1 (xv n y)) (or_introl eq_refl) Hr) (steps_lt_le n p k Squared X HS) j' Hr HS Hj' Hl'). }
  assert (Hf1 : fitted PB (rstep PB st0 j)) by (apply step_fitted; auto; apply start_fitted).
  assert (Q : obj PB (rstep PB st0 j) < obj PB st0).
  { destruct (Rlt_le_dec (obj PB (rstep PB st0 j)) (obj PB st0)) as [|Hge]; auto. exfalso.
    destruct (still PB _ _ DT PT HL SC HX HK st0 j Hj Hge) as [S1 _]. specialize (S1 Hl). lra. }
  destruct (rstep PB st0 j) as [W Z]. exists (fun j => W j 0%nat). unfold PB, st0 in Q. rewrite prob1_obj, prob1_obj0 in Q by auto. exact Q.
Qed.
Variables (s : solver xr) (fit : nat -> res (result (list xr) (estimator_error xr))) (tol : R).
Hypotheses (HF : single_fit srt n p X y Squared k s fit) (Et : s_tolerance s = Fin tol) (Htol : 0 <= tol).
Lemma fit_zero : accepted fit -> fit 0%nat = Ret (Ok (xv p (fun _ => 0))).
Proof.
  intros Hacc. destruct (single_run srt VS n p Hn X y Squared k s fit HF) as [(e & He)|[Hr Hgo]]; [exfalso; apply (Hacc 0%nat e); auto|]. rewrite Hgo. reflexivity.
Qed.
Lemma c19_real : accepted fit -> am <= slope k + tol -> forall m, fit m = Ret (Ok (xv p (fun _ => 0))).
Proof.
  intros Hacc Hle m. destruct (single_run srt VS n p Hn X y Squared k s fit HF) as [(e & He)|[Hr Hgo]]; [exfalso; apply (Hacc 0%nat e); auto|].
  rewrite Hgo. unfold go1, run1. rewrite Et. replace m with (0 + m)%nat by lia.
  rewrite (solve_final (prob1 Squared k n p X y) srt tol _ _ _ _ 0 m (fun _ _ => 0, fun _ _ => 0)); [reflexivity|reflexivity|].
  apply done_stationary; auto; [apply start_fitted|]. apply zero_iff; auto.
Qed.
Lemma c20_real : steps_ok Rlt k Squared n p X -> (1 <= s_ws_start_size s)%nat -> (1 <= s_max_epochs s)%nat -> slope k + tol < am ->
  forall m v, (1 <= m)%nat -> fit m = Ret (Ok v) ->
  exists w, v = xv p w /\ objective (loss1 Squared n y) p X (pen1 k) w < objective (loss1 Squared n y) p X (pen1 k) (fun _ => 0) /\ exists j, (j < p)%nat /\ w j <> 0.
Proof.
  intros HS Hw Hme Hlt m v Hm Ev. destruct (inv1 srt VS n p Hn X y Squared k s fit HF I (steps_lt_le n p k Squared X HS) m v Ev) as (Hr & _).
  assert (E0 : fit 0%nat = Ret (Ok (xv p (fun _ => 0)))).
  { destruct (single_run srt VS n p Hn X y Squared k s fit HF) as [Hrej|[_ Hgo]]; [exfalso; eapply not_rejected; eauto|]. rewrite Hgo. reflexivity. }
  destruct (strict_single srt VS n p Hn X y Squared k s fit HF I HS tol 0 m (fun _ => 0) v Et Htol Hw Hme Hm E0) as (w & -> & Hobj); auto.
  - rewrite zero_iff by auto. lra.
  - exists w. split; auto. split; auto. destruct (existsb (fun j => negb (Reqb (w j) 0)) (seq 0 p)) eqn:Ex.
    + apply existsb_exists in Ex as (j & Hj & Ej). apply in_seq in Hj. exists j. split; [lia|]. apply negb_true_iff in Ej. rb. auto.
    + exfalso. rewrite (objf_ext srt n p X y Squared k s fit HF I (steps_lt_le n p k Squared X HS) w (fun _ => 0)) in Hobj; [lra|].
      intros j Hj. destruct (Reqb (w j) 0) eqn:Ej; [rb; auto|]. exfalso. assert (existsb (fun j => negb (Reqb (w j) 0)) (seq 0 p) = true); [|congruence].
      apply existsb_exists. exists j. rewrite Ej. split; auto. apply in_seq. lia.
Qed.
End One.

(** *** several tasks *)
Section Many.
Variables (T : nat) (X Y : rmat) (k : multi_pen) (am : R) (s : solver xr) (fit : nat -> res (result (mat xr) (estimator_error xr))) (tol : R).
Hypotheses (Ham : reported_alpha_max_mt n p T X Y am) (HF : multi_fit srt n p T X Y k s fit).
Lemma c19_real_mt : s_tolerance s = Fin tol -> 0 <= tol -> match k with MtEnetPen _ _ => False | _ => True end -> accepted fit -> am <= slope_mt k + tol -> forall m, fit m = Ret (Ok (xm p T (fun _ _ => 0))).
Proof.
  intros Et Htol Hk Hacc Hle m. destruct (multi_run srt VS n p Hn T X Y k s fit HF) as [Hr [(e & He)|Hgo]]; [exfalso; apply (Hacc 0%nat e); auto|].
  rewrite Hgo. unfold goT, runT. rewrite Et. replace m with (0 + m)%nat by lia.
  rewrite (solve_final (probT k n p T X Y) srt tol _ _ _ _ 0 m (fun _ _ => 0, fun _ _ => 0)); [reflexivity|reflexivity|].
  intros j Hj. cbn [fst snd]. rewrite probT_dist; auto; [|apply start_fitted]. rewrite tab_zero by auto. rewrite distT_0, gradT0 by auto.
  destruct (largest_div n p (xty_norm n T X Y) Hn) as [H1 _]. specialize (H1 j Hj). rewrite <- (am_value_mt n p T X Y am Hn Ham), xty_norm_abs in H1. apply Rmax_lub; lra.
Qed.
(** the score of the multi-task elastic net is not reliable; its iterates are zero nevertheless *)
Lemma zero_opt_mt : convexT k -> am <= slope_mt k -> forall W, objective_mt (quad_loss_mt n T Y) p T X (penT k) (fun _ _ => 0) <= objective_mt (quad_loss_mt n T Y) p T X (penT k) W.
Proof.
  intros Hc Hle W. assert (Hr := proj1 (multi_run srt VS n p Hn T X Y k s fit HF)).
  assert (Q := quad_convex n T p X Y (fun _ _ => 0) W Hn). unfold objective_mt.
  change (fun j => penT k (map (W j) (seq 0 T))) with (fun j => penT k (tab T (W j))).
  rewrite (Sum_zero p (fun j => penT k (map _ _))).
  2:{ intros j _. change (map (fun _ => 0) (seq 0 T)) with (tab T (fun _ => 0)). rewrite tab_zero by auto. destruct k; cbn in Hc; try contradiction; cbn [penT]; rewrite norm2_0; unfold abs_pen, enet_pen; rewrite Rabs_R0; ring. }
  assert (A : 0 <= Sum p (fun j => penT k (tab T (W j))) + Sum p (fun j => Sum T (fun t => gq n X Y (lin_mt p X (fun _ _ => 0)) j t * (W j t - 0)))).
  { rewrite <- Sum_plus. apply Sum_nonneg. intros j Hj.
    assert (HP := penT_l1 k (slope_mt k) (tab T (W j)) Hr ltac:(destruct k; cbn in *; auto)).
    assert (CS := cauchy_schwarz (vscale (-1) (tab T (gq n X Y (lin_mt p X (fun _ _ => 0)) j))) (tab T (W j))).
    rewrite dotp_scale_l, norm2_scale, gradT0, dotp_tab in CS. replace (Rabs (-1)) with 1 in CS by (rewrite Rabs_left; lra).
    destruct (largest_div n p (xty_norm n T X Y) Hn) as [H1 _]. specialize (H1 j Hj). rewrite <- (am_value_mt n p T X Y am Hn Ham), xty_norm_abs in H1.
    rewrite (Sum_ext T _ (fun t => gq n X Y (lin_mt p X (fun _ _ => 0)) j t * W j t)) by (intros; ring).
    assert (xty_norm n T X Y j / INR n * norm2 (tab T (W j)) <= slope_mt k * norm2 (tab T (W j))) by (apply Rmult_le_compat_r; [apply norm2_pos|lra]). lra. }
  lra.
Qed.
Lemma c19_enet_mt : convexT k -> am <= slope_mt k -> forall m v, fit m = Ret (Ok v) -> v = xm p T (fun _ _ => 0).
Proof.
  intros Hc Hle m v Ev. assert (HS : steps_ok_mt Rle k n p X) by (destruct k; cbn in *; auto; contradiction).
  assert (Hr := proj1 (multi_run srt VS n p Hn T X Y k s fit HF)).
  destruct (invT srt VS n p Hn T X Y k s fit HF HS m v Ev) as (W & Z & Er & -> & _ & _ & _). set (PB := probT k n p T X Y) in *.
  assert (DT : data_theory PB) by exact (quad_data n p T X Y (proxT k) (penT k) (distT k) Hn).
  assert (N : null PB (objective_mt (quad_loss_mt n T Y) p T X (penT k) (fun _ _ => 0)) (W, Z)).
  { unfold rsolve in Er. refine (null_router PB (okstepT k) (cT k) srt VS DT (penT_theory k T Hr) _ _ _ _ _ _ _ _ _ _ _ _ _ _ _ Er).
    - apply (probT_steps n p Hn k T X Y HS).
    - intros j Hj Hl. pose proof (da_L PB DT j). unfold live in Hl. assert (0 < 1 / pL PB j) by (apply Rdiv_lt_0_compat; lra).
      destruct k as [a|a r|a g]; cbn [cT penT_range] in *; [lra| |contradiction]. assert (0 <= 1 / pL PB j * (1 - r) * a) by (apply Rmult_le_pos; [apply Rmult_le_pos|]; lra). lra.
    - intros [W1 Z1] Hf. unfold PB. rewrite probT_obj by auto. apply zero_opt_mt; auto.
    - apply Nat.le_min_r.
    - split; [apply start_fitted|]. split; [unfold PB; rewrite probT_obj0; lra|]. intros j. apply tab_zero. auto. }
  destruct N as (_ & _ & N). apply xm_ext. intros j t Hj Ht. specialize (N j). cbn [fst] in N. apply (f_equal (fun l => nth t l 0)) in N. unfold row in N. change (pT PB) with T in N. rewrite nth_tab, nth_repeat in N by auto. auto.
Qed.
End Many.
Section ManyLasso.
Variables (T : nat) (X Y : rmat) (a : R) (am : R) (s : solver xr) (fit : nat -> res (result (mat xr) (estimator_error xr))) (tol : R).
Hypotheses (Ham : reported_alpha_max_mt n p T X Y am) (HF : multi_fit srt n p T X Y (MtLassoPen a) s fit).
Lemma c20_real_mt : s_tolerance s = Fin tol -> 0 <= tol -> (1 <= s_ws_start_size s)%nat -> (1 <= s_max_epochs s)%nat -> a + tol < am ->
  forall m v, (1 <= m)%nat -> fit m = Ret (Ok v) ->
  exists W, v = xm p T W /\ objective_mt (quad_loss_mt n T Y) p T X (penT (MtLassoPen a)) W < objective_mt (quad_loss_mt n T Y) p T X (penT (MtLassoPen a)) (fun _ _ => 0) /\
    exists j t, (j < p)%nat /\ (t < T)%nat /\ W j t <> 0.
Proof.
  intros Et Htol Hw Hme Hlt m v Hm Ev.
  destruct (multi_run srt VS n p Hn T X Y (MtLassoPen a) s fit HF) as [Hr [Hrej|Hgo]]; [exfalso; eapply not_rejected; eauto|].
  assert (E0 : fit 0%nat = Ret (Ok (xm p T (fun _ _ => 0)))) by (rewrite Hgo; reflexivity).
  destruct (strict_multi srt VS n p Hn T X Y a s fit HF tol 0 m (fun _ _ => 0) v Et Htol Hw Hme Hm E0) as (W & -> & Hobj); auto.
  - cbn [penT_range] in Hr. rewrite mt_lasso_stationary_iff by auto. intros H.
    destruct (largest_div n p (xty_norm n T X Y) Hn) as [_ H2]. rewrite <- (am_value_mt n p T X Y am Hn Ham) in H2. destruct H2 as (j & Hj & E); [lra|].
    specialize (H j Hj). rewrite tab_zero in H by auto. change r_l21_score with (fun a => distT (MtLassoPen a)) in H. cbv beta in H. rewrite distT_0, gradT0 in H by auto. rewrite xty_norm_abs in E. rewrite E in H.
    cbn [slope_mt] in H. pose proof (Rmax_r 0 (am - a)). lra.
  - exists W. split; auto. split; auto. destruct (existsb (fun j => existsb (fun t => negb (Reqb (W j t) 0)) (seq 0 T)) (seq 0 p)) eqn:Ex.
    + apply existsb_exists in Ex as (j & Hj & Ej). apply in_seq in Hj. apply existsb_exists in Ej as (t & Ht & Et'). apply in_seq in Ht. exists j, t. repeat split; try lia. apply negb_true_iff in Et'. rb. auto.
    + exfalso. rewrite (objT_ext n p T X Y (MtLassoPen a) W (fun _ _ => 0)) in Hobj; [lra|].
      intros j t Hj Ht. destruct (Reqb (W j t) 0) eqn:Ej; [rb; auto|]. exfalso. rewrite <- not_true_iff_false in Ex. apply Ex.
      apply existsb_exists. exists j. split; [apply in_seq; lia|]. apply existsb_exists. exists t. rewrite Ej. split; auto. apply in_seq. lia.
Qed.
End ManyLasso.
End S.
