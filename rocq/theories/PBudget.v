(** Explicit iteration budgets. *)
From Coq Require Import List ZArith Bool Arith Reals Lra Lia.
From Verif Require Import Ops Arr MUtils MDatasets MDatafits MDatafitsMT MPenalties MBlockPenalties MCd MBcd MHyper MEstimators XR SpecPen VecR PBase RSum PProx SpecLin SpecData PDatafit PCalc PDataProps SpecSolve PLaws PRef PRefCD PRefPen PSim PFit PSubdiff PSubdiffBlock PSymProps PDescent PConv PTheory SpecOpt PFitOpt SpecBudget.
Import ListNotations.
Open Scope R_scope.

Section Within.
Variables (P : problem) (okstep : R -> Prop) (c : R -> R) (srt : list xr -> list nat).
Local Notation p := (pp P). Local Notation T := (pT P).
Hypotheses (VS : valid_sort xops srt) (DT : data_theory P) (PT : pen_theory T (pprox P) (ppv P) okstep c) (ST : score_theory T (ppv P) (pdist P))
  (HL : forall j, (j < p)%nat -> pL P j <> 0 -> okstep (1 / pL P j)).
Variables (H B k0 : R).
Hypotheses (H0 : 0 <= H) (B0 : 0 < B) (Hk0 : 0 < k0)
  (HH : forall Z j k d, (j < p)%nat -> (k < p)%nat -> norm2 (vminus (row P (pg P (shift (pX P) Z j d)) k) (row P (pg P Z) k)) <= H * norm2 (tab T d))
  (HK : forall j, (j < p)%nat -> live P j -> k0 <= kap P c j)
  (HB : forall j, (j < p)%nat -> pL P j <= B)
  (HM : forall j, (j < p)%nat -> live P j -> zero_moves T (pprox P) (pdist P) (pL P j) B).
Local Notation st0 := ((fun _ _ => 0, fun _ _ => 0) : rmat * rmat).
Lemma solve_within tol K acc ws0 me N : 0 < tol -> (1 <= ws0)%nat -> (1 <= me)%nat -> calm acc K (seq 0 me) -> accel_safe acc K (Nat.min ws0 p * T) me ->
  2 * obj P st0 * (B + INR p * H) ^ 2 < INR N * (k0 * tol ^ 2) ->
  exists st, done P tol st /\ forall m, (N <= m)%nat -> rsolve P srt (Fin tol) K acc ws0 me m = Ret st.
Proof.
  intros Ht Hw Hme Hcalm Hsafe HN. destruct (Nat.eq_dec p 0) as [E0|E0].
  { exists st0. assert (Hd : done P tol st0) by (intros j Hj; lia).
    split; auto. intros m _. apply (done_stops P srt tol K acc (Nat.min ws0 p) me st0); auto. }
  assert (HW : (1 <= Nat.min ws0 p <= p)%nat) by lia.
  pose proof (delta_pos P H B k0 H0 B0 Hk0 tol Ht) as Hdel.
  assert (Hset : settled P H B k0 tol (obj P st0) st0).
  { split; [intros ? ? ? ? ?; reflexivity|]. split; [lra|]. intros _ j Hj Hnz. apply nz_row_true in Hnz. exfalso. apply Hnz. apply tab_zero. reflexivity. }
  destruct (conv_within P okstep c srt VS DT PT ST HL H B k0 H0 B0 Hk0 HH HK HB (fun j g Hj Hl Hg => HM j Hj Hl g Hg)
    tol K acc (Nat.min ws0 p) me Ht HW Hme Hcalm Hsafe N (obj P st0) st0 Hset) as (m & st' & Hm & Hd & Hall).
  - assert (HD : 0 < B + INR p * H) by (assert (0 <= INR p * H) by (apply Rmult_le_pos; auto; apply pos_INR); lra).
    assert (HD2 : 0 < (B + INR p * H) ^ 2) by (apply pow_lt; auto).
    apply Rmult_lt_reg_r with ((B + INR p * H) ^ 2); auto. unfold delta, eta.
    replace (INR N * (k0 * (tol / (B + INR p * H)) ^ 2) * (B + INR p * H) ^ 2) with (INR N * (k0 * tol ^ 2)) by (field; lra). lra.
  - exists st'. split; auto. intros m' Hm'. apply (Hall m'). lia.
Qed.
End Within.

Lemma cross_bound n X M : (1 <= n)%nat -> forall j k, mean_square n X j <= M -> mean_square n X k <= M -> Sum n (fun i => Rabs (X i k) * Rabs (X i j)) / INR n <= M.
Proof.
  intros Hn j k Hj Hk. pose proof (INR_npos n Hn) as HN. unfold mean_square in *.
  apply Rle_trans with ((Sum n (fun i => X i j ^ 2) / INR n + Sum n (fun i => X i k ^ 2) / INR n) / 2); [|lra].
  replace ((Sum n (fun i => X i j ^ 2) / INR n + Sum n (fun i => X i k ^ 2) / INR n) / 2) with (Sum n (fun i => / 2 * (X i j ^ 2 + X i k ^ 2)) / INR n).
  2:{ rewrite Sum_scal, Sum_plus. field. lra. }
  apply Rmult_le_compat_r; [left; apply Rinv_0_lt_compat; auto|]. apply Sum_le. intros i _.
  rewrite <- (pow2_abs (X i j)), <- (pow2_abs (X i k)). pose proof (pow2_ge_0 (Rabs (X i k) - Rabs (X i j))). nra.
Qed.
Lemma curvature_mean n X l j : (1 <= n)%nat -> curvature l n X j <= mean_square n X j.
Proof.
  intros Hn. pose proof (INR_npos n Hn) as HN. unfold mean_square. destruct l; cbn [curvature]; [lra|].
  assert (Q : 0 <= Sum n (fun i => X i j ^ 2) / INR n) by (apply Rmult_le_pos; [apply Sum_nonneg; intros; apply pow2_ge_0|left; apply Rinv_0_lt_compat; auto]).
  replace (Sum n (fun i => X i j ^ 2) / (4 * INR n)) with (Sum n (fun i => X i j ^ 2) / INR n / 4) by (field; lra). lra.
Qed.

Section One.
Variables (srt : list xr -> list nat) (VS : valid_sort xops srt) (n p : nat) (Hn : (1 <= n)%nat).
Variables (X : rmat) (y : nat -> R) (l : single_loss) (k : single_pen) (s : solver xr) (fit : nat -> res (result (list xr) (estimator_error xr))).
Hypotheses (HF : single_fit srt n p X y l k s fit) (Hy : targets_ok l n y).
Let PB := prob1 l k n p X y.
Variables (M mu : R).
Hypotheses (HM0 : 0 < M) (HM : forall j, (j < p)%nat -> mean_square n X j <= M) (Hmu0 : 0 < mu)
  (Hmu : forall j, (j < p)%nat -> nonzero_column n X j -> mu <= total_curvature k (curvature l n X j)).
Lemma steps_from_mu : pen1_range k -> steps_ok Rlt k l n p X.
Proof.
  intros Hr. destruct k as [a|a r|a g]; cbn [steps_ok]; auto. intros j Hj Hx. specialize (Hmu j Hj Hx). cbn [total_curvature pen1_range] in *. destruct Hr as [_ Hg].
  apply Rmult_lt_reg_l with (/ g); [apply Rinv_0_lt_compat; auto|]. rewrite <- Rmult_assoc, Rinv_l, Rmult_1_l, Rmult_1_r by lra. lra.
Qed.
Lemma c68_single tol N : accepted fit -> s_tolerance s = Fin tol -> 0 < tol -> (1 <= s_ws_start_size s)%nat -> (1 <= s_max_epochs s)%nat ->
  calm_schedule (s_use_acceleration s) (s_K s) (s_max_epochs s) -> accel_safe (s_use_acceleration s) (s_K s) (Nat.min (s_ws_start_size s) p) (s_max_epochs s) ->
  4 * loss1 l n y (fun _ => 0) * (INR (p + 1) * M + ridge k) ^ 2 < INR N * (mu * tol ^ 2) ->
  settles_by N p (stationary tol (loss1 l n y) p X (pen1 k)) fit.
Proof.
  intros Hacc Et Htol Hw Hme Hcal Hsafe HN. destruct (single_run srt VS n p Hn X y l k s fit HF) as [(e & He)|[Hr Hgo]]; [exfalso; apply (Hacc 0%nat e); auto|].
  pose proof (steps_from_mu Hr) as Hlt. pose proof (steps_lt_le n p k l X Hlt) as Hle.
  assert (HS : forall j, (j < pp PB)%nat -> pL PB j <> 0 -> okstep1 k (1 / pL PB j)) by (unfold PB; rewrite prob1_p; apply prob1_steps; auto).
  assert (Hri : 0 <= ridge k) by (destruct k; cbn [ridge pen1_range] in *; try lra; apply Rmult_le_pos; lra).
  destruct (solve_within PB (okstep1 k) (c1 k) srt VS (prob1_data n p Hn l k X y Hy) (prob1_pen n p l k X y Hr)) with (tol := tol) (K := s_K s) (acc := s_use_acceleration s) (ws0 := s_ws_start_size s) (me := s_max_epochs s)
    (H := M) (B := M + ridge k) (k0 := mu / 2) (N := N) as ([W Z] & Hd & Hall); auto; try lra.
  - unfold PB. destruct l; apply (pen1_scores k Hr).
  - unfold PB. rewrite prob1_p, prob1_X, prob1_T. intros Z i j d Hi Hj. unfold targets_ok in Hy.
    apply Rle_trans with (Sum n (fun q => Rabs (X q j) * Rabs (X q i)) / INR n * norm2 (tab 1 d)).
    + destruct l; [apply (quad_lip_term n p 1 X (fun i _ => y i) (lprox (prox1 k)) (lpv (pen1 k)) (ldist (dist1 k))); auto|apply (log_lip_term n p X y (prox1 k) (pen1 k) (dist1 k)); auto].
    + apply Rmult_le_compat_r; [apply norm2_pos|]. apply cross_bound; auto.
  - unfold PB at 1. rewrite prob1_p. unfold live, kap, PB. intros j Hj. rewrite prob1_L. intros Hl. pose proof (curv_nonneg n Hn l X j) as Hc.
    specialize (Hmu j Hj (curv_live n Hn l X j Hl)). destruct k as [a|a r|a g]; cbn [c1 total_curvature pen1_range] in *; [lra| |].
    + replace ((1 + 1 / curvature l n X j * (1 - r) * a) * curvature l n X j / 2) with ((curvature l n X j + a * (1 - r)) / 2) by (field; auto). lra.
    + replace ((1 - 1 / curvature l n X j / g) * curvature l n X j / 2) with ((curvature l n X j - / g) / 2) by (field; split; [auto|lra]). lra.
  - unfold PB at 1. rewrite prob1_p. unfold PB. intros j Hj. rewrite prob1_L. pose proof (curvature_mean n X l j Hn). specialize (HM j Hj). lra.
  - unfold PB at 1. rewrite prob1_p. intros j Hj Hl. unfold live in Hl. pose proof (curv_nonneg n Hn l X j) as Hc.
    pose proof (curvature_mean n X l j Hn) as Hcm. specialize (HM j Hj).
    assert (HL : 0 < pL PB j) by (unfold PB in *; rewrite prob1_L in *; lra).
    assert (Hcl : pL PB j <= M) by (unfold PB; rewrite prob1_L; lra).
    assert (Hg : match k with McpPen _ g => 1 / pL PB j < g | _ => True end).
    { unfold PB in *. rewrite prob1_L in *. destruct k as [a|a r|a g]; auto. cbn [steps_ok] in Hlt. apply (step_lt g (curvature l n X j)); [lra|]. apply Hlt; auto. apply (curv_live n Hn l); auto. }
    assert (Q : zero_moves 1 (lprox (prox1 k)) (ldist (dist1 k)) (pL PB j) (pL PB j + ridge k)).
    { destruct k as [a|a r|a g]; cbn [pen1_range prox1 dist1 ridge] in *; rewrite ?Rplus_0_r.
      - apply l1_moves; auto.
      - rewrite (Rmult_comm a). apply l1l2_moves; tauto.
      - apply mcp_moves; tauto. }
    assert (Q' : zero_moves 1 (lprox (prox1 k)) (ldist (dist1 k)) (pL PB j) (M + ridge k)).
    { intros g Hgl. apply Rle_trans with (1 := Q g Hgl). apply Rmult_le_compat_r; [apply norm2_pos|lra]. }
    unfold PB in *. destruct l; exact Q'.
  - apply (calm_of n Hn); auto.
  - unfold PB. rewrite prob1_p, prob1_T, Nat.mul_1_r. auto.
  - unfold PB. rewrite prob1_p, prob1_obj0 by auto. rewrite plus_INR in HN. change (INR 1) with 1 in HN.
    replace (objective (loss1 l n y) p X (pen1 k) (fun _ => 0)) with (loss1 l n y (fun _ => 0)).
    + replace (M + ridge k + INR p * M) with ((INR p + 1) * M + ridge k) by ring. lra.
    + unfold objective. rewrite (Sum_zero p). 2:{ intros j _. assert (Z := pt_zero _ _ _ _ _ (pen1_theory k Hr)). exact Z. }
      assert (EL : forall i, lin p X (fun _ => 0) i = 0) by (intros; unfold lin; apply Sum_zero; intros; ring).
      destruct l; cbn [loss1]; unfold quad_loss, logistic_loss; rewrite Rplus_0_r; f_equal; apply Sum_ext; intros; rewrite EL; reflexivity.
  - exists (fun j => W j 0%nat). split.
    + destruct (solve_inv PB (okstep1 k) (c1 k) srt VS (prob1_data n p Hn l k X y Hy) (prob1_pen n p l k X y Hr)) with (2 := Hall N (le_n _)) as (_ & Hf & _); auto.
      eapply done_stationary; eauto.
    + intros m Hm. rewrite Hgo. unfold go1, run1. fold PB. rewrite Et, Hall by auto. reflexivity.
Qed.
End One.

Section Many.
Variables (srt : list xr -> list nat) (VS : valid_sort xops srt) (n p : nat) (Hn : (1 <= n)%nat).
Variables (T : nat) (X Y : rmat) (a : R) (s : solver xr) (fit : nat -> res (result (mat xr) (estimator_error xr))).
Hypotheses (HF : multi_fit srt n p T X Y (MtLassoPen a) s fit).
Variables (M mu : R).
Hypotheses (HM0 : 0 < M) (HM : forall j, (j < p)%nat -> mean_square n X j <= M) (Hmu0 : 0 < mu)
  (Hmu : forall j, (j < p)%nat -> nonzero_column n X j -> mu <= mean_square n X j).
Let PB := probT (MtLassoPen a) n p T X Y.
Lemma c68_multi tol N : accepted fit -> s_tolerance s = Fin tol -> 0 < tol -> (1 <= s_ws_start_size s)%nat -> (1 <= s_max_epochs s)%nat ->
  calm_schedule (s_use_acceleration s) (s_K s) (s_max_epochs s) -> accel_safe (s_use_acceleration s) (s_K s) (Nat.min (s_ws_start_size s) p * T) (s_max_epochs s) ->
  4 * quad_loss_mt n T Y (fun _ _ => 0) * (INR (p + 1) * M) ^ 2 < INR N * (mu * tol ^ 2) ->
  settles_by_mt N p T (stationary_mt tol (quad_loss_mt n T Y) p T X (penT (MtLassoPen a))) fit.
Proof.
  intros Hacc Et Htol Hw Hme Hcal Hsafe HN. destruct (multi_run srt VS n p Hn T X Y (MtLassoPen a) s fit HF) as [Ha [(e & He)|Hg]]; [exfalso; apply (Hacc 0%nat e); auto|].
  assert (DT : data_theory PB) by exact (quad_data n p T X Y (proxT (MtLassoPen a)) (penT (MtLassoPen a)) (distT (MtLassoPen a)) Hn).
  assert (PT : pen_theory (pT PB) (pprox PB) (ppv PB) (okstepT (MtLassoPen a)) (cT (MtLassoPen a))) by exact (penT_theory (MtLassoPen a) T Ha).
  assert (HL : forall j, (j < pp PB)%nat -> pL PB j <> 0 -> okstepT (MtLassoPen a) (1 / pL PB j)) by exact (probT_steps n p Hn (MtLassoPen a) T X Y I).
  assert (EL : forall j, pL PB j = mean_square n X j) by (intros j; cbn [PB probT mtP pL]; rewrite <- curv_Lq; reflexivity).
  destruct (solve_within PB _ _ srt VS DT PT) with (tol := tol) (K := s_K s) (acc := s_use_acceleration s) (ws0 := s_ws_start_size s) (me := s_max_epochs s)
    (H := M) (B := M) (k0 := mu / 2) (N := N) as ([W Z] & Hd & Hall); auto; try lra.
  - apply (l21_scores T a). cbn [penT_range] in Ha. lra.
  - intros Z i j d Hi Hj. apply Rle_trans with (1 := quad_lip_term n p T X Y (proxT (MtLassoPen a)) (penT (MtLassoPen a)) (distT (MtLassoPen a)) Hn Z i j d Hi Hj).
    apply Rmult_le_compat_r; [apply norm2_pos|]. apply cross_bound; auto.
  - intros j Hj Hl. unfold live in Hl. unfold kap. cbn [cT]. rewrite EL in *. assert (Q := Hmu j Hj). rewrite <- (EL j) in Hl. cbn [PB probT mtP pL] in Hl.
    specialize (Q (Lq_live n X Hn j Hl)). lra.
  - intros j Hj. rewrite EL. auto.
  - intros j Hj Hl. pose proof (da_L PB DT j). unfold live in Hl. intros g Hgl.
    apply Rle_trans with (1 := l21_moves T a (pL PB j) Ha ltac:(lra) g Hgl). apply Rmult_le_compat_r; [apply norm2_pos|]. rewrite EL. auto.
  - apply (calm_of n Hn); auto.
  - unfold PB. rewrite probT_obj0 by auto. cbn [probT mtP pp]. rewrite plus_INR in HN. change (INR 1) with 1 in HN.
    replace (objective_mt (quad_loss_mt n T Y) p T X (penT (MtLassoPen a)) (fun _ _ => 0)) with (quad_loss_mt n T Y (fun _ _ => 0)).
    + replace (M + INR p * M) with ((INR p + 1) * M) by ring. lra.
    + unfold objective_mt. rewrite (Sum_zero p). 2:{ intros j _. assert (Q := pt_zero _ _ _ _ _ PT). cbn [PB probT mtP ppv pT] in Q. change (map (fun _ => 0) (seq 0 T)) with (tab T (fun _ => 0)). rewrite tab_zero by auto. exact Q. }
      assert (EZ : forall i t, lin_mt p X (fun _ _ => 0) i t = 0) by (intros; unfold lin_mt; apply Sum_zero; intros; ring).
      rewrite Rplus_0_r. unfold quad_loss_mt. f_equal. apply Sum_ext. intros. apply Sum_ext. intros. rewrite EZ. reflexivity.
  - exists W. split.
    + destruct (solve_inv PB _ _ srt VS DT PT HL _ _ _ _ _ _ _ (Hall N (le_n _))) as (_ & Hf & _). eapply done_stationary_mt; eauto.
    + intros m Hm. rewrite Hg. unfold goT, runT. fold PB. rewrite Et, Hall by auto. reflexivity.
Qed.
End Many.
