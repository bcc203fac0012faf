(** Two floating-point fits of the same data. *)
From Coq Require Import List ZArith Bool Arith Lia Reals Lra.
From Flocq Require Import Core BinarySingleNaN.
From Verif Require Import Ops Arr XR IEEE RSum SpecPen SpecRound SpecData SpecLin SpecSolve SpecOpt SpecBudget SpecOracle SpecTrace SpecDrift SpecDriftEnet SpecAgree PBase PFloat PRoundFit PTrace PDrift PDriftInst PRoundCert PDatafit PCert PCalc PFitOpt PTraceFit PTraceEnet PMore PSens
  MUtils MDatasets MDatafits MPenalties MCd MHyper MEstimators.
Import ListNotations.
Open Scope R_scope.

Lemma stationary_ext n p E E' y y' eps pen w : (0 < n)%nat -> (forall i j, (i < n)%nat -> (j < p)%nat -> E i j = E' i j) -> (forall i, (i < n)%nat -> y i = y' i) ->
  stationary eps (loss1 Squared n y) p E pen w -> stationary eps (loss1 Squared n y') p E' pen w.
Proof.
  intros Pn HE Hy H j Hj. destruct (H j Hj) as (d & (g & Dg & Hd) & Le). exists d. split; [|exact Le]. exists g. split; [|exact Hd].
  assert (EG : g = dloss1 n p Squared E' y' w j).
  { assert (E1 : g = dloss1 n p Squared E y w j) by (eapply uniqueness_limite; [exact Dg|apply loss1_deriv; auto; lia]). rewrite E1. cbn [dloss1]. unfold gq. f_equal. f_equal; apply Sum_ext; intros i Hi; rewrite (HE i j Hi Hj).
    - f_equal. unfold lin. apply Sum_ext. intros k Hk. rewrite (HE i k Hi Hk). reflexivity.
    - rewrite (Hy i Hi). reflexivity. }
  rewrite EG. apply loss1_deriv; auto; lia.
Qed.
Lemma stationary_nonneg n p E y eps k w : convex1 k -> (0 < p)%nat -> stationary eps (loss1 Squared n y) p E (pen1 k) w -> 0 <= eps.
Proof.
  intros _ Pp H. destruct (H 0%nat Pp) as (d & (g & _ & (_ & s & _ & Ed)) & Le). pose proof (Rabs_pos (- g - s)). lra.
Qed.

Section I.
Context (prec emax : Z) (Hp : Prec_gt_0 prec) (Hm : Prec_lt_emax prec emax) (m : libm prec emax).
Local Notation bf := (binary_float prec emax).
Local Notation o := (ieee_ops prec emax Hp Hm m).
Local Notation u := (urd prec).
Local Notation atR := (atR prec emax).
Local Notation finite := (finite prec emax).
Local Notation tgt t := (fun i => nth i (tgtR prec emax t) 0).
Lemma fin_nan (g : bf) : finite g -> is_nan g = false.
Proof. destruct g; cbn; auto; discriminate. Qed.

Section G.
Context {DM : Type} (dm : DesignMatrix bf DM) (df : Datafit bf DM (quadratic bf)) (ds : dataset DM bf) (n p : nat) (E : nat -> nat -> R) (y : nat -> R) (v : params bf).
Local Notation st := (Solver (p_ws_start_size v) (p_max_iterations v) (p_max_epochs v) (p_tolerance v) (p_K v) (p_use_acceleration v) (p_verbose v)).
Context (srt : list bf -> list nat) (VS : valid_sort o srt) (NF : dm_n_features dm (design_matrix ds) = Ret p) (NS : n_samples (dtargets ds) = n) (Pn : (0 < n)%nat).
Context (GE : forall d Xw j g, df_initialize df (quadratic_new o) ds = Ret d -> df_gradient_j df d ds Xw j = Ret g -> finite g ->
    (forall i, (i < n)%nat -> E i j = 0 \/ finite (nth i Xw (f0 o))) /\
    Rabs (B2R g - (Sum n (fun i => E i j * atR Xw i) - Sum n (fun i => E i j * y i)) / INR n) <=
    rel u (n + 2) * (Sum n (fun i => Rabs (E i j) * (Rabs (atR Xw i) + Rabs (y i))) / INR n) + 3 * (1 + u) ^ (n + 2) * tiny prec emax).
Context (Fa : finite (p_alpha v)) (Ft : finite (p_tolerance v)).
Lemma runs {P} (pen : Penalty bf P) q w (OS : one_score_each pen q) : solve o srt dm df pen st ds (quadratic_new o) q = Ret w ->
  exists d k s0 js Xw, course prec emax Hp Hm m dm df pen ds q n p v w d k s0 js Xw /\ length w = p /\
    (k = p_max_iterations v \/ tested o df pen ds d q p (p_tolerance v) true (w, Xw)).
Proof using VS NF NS.
  intros EF. destruct (c81 o dm df pen srt ds (quadratic_new o) q st w p VS OS NF EF) as (d & k & Xw & EI & Hk & HR & HT).
  rewrite NS in HR. destruct (rounds_run _ _ _ _ _ _ _ _ _ _ _ _ _ _ HR) as (s0 & js & HO & HL & HS).
  exists d, k, s0, js, Xw. split; [split; [exact EI|split; [exact Hk|split; [exact HR|split; [exact HO|split; [exact HL|exact HS]]]]]|]. split; [|exact HT].
  change w with (fst (w, Xw)). rewrite (steps_wlen o dm df pen ds d q _ _ _ HS). destruct HO as [->|(ws & _ & _ & L & _)]; [apply repeat_length|exact L].
Qed.
Lemma stat_lasso w (Ha : 0 <= B2R (p_alpha v))
  (TR : forall d js s0 s1, origin prec emax o dm ds p n s0 -> foldM (cd_step o dm df (l1_penalty o) ds d (L1 (p_alpha v))) js s0 = Ret s1 -> tracks prec emax E p n (history prec emax o dm df (l1_penalty o) ds d (L1 (p_alpha v)) p js s0) s1) :
  solve o srt dm df (l1_penalty o) st ds (quadratic_new o) (L1 (p_alpha v)) = Ret w ->
  exists k W, (exists d s0 js Xw, course prec emax Hp Hm m dm df (l1_penalty o) ds (L1 (p_alpha v)) n p v w d k s0 js Xw /\
      W = resolves prec emax Hp Hm m dm df (l1_penalty o) ds (L1 (p_alpha v)) (fun _ => 0) E y n p v w d s0 js Xw) /\
    (k = p_max_iterations v \/ forall eps, W eps -> stationary eps (loss1 Squared n y) p E (pen1 (LassoPen (B2R (p_alpha v)))) (atR w)).
Proof using VS NF NS Pn GE Fa Ft.
  intros EF. destruct (runs (l1_penalty o) _ w (one_l1 o _) EF) as (d & k & s0 & js & Xw & HC & LW & HT).
  exists k, (resolves prec emax Hp Hm m dm df (l1_penalty o) ds (L1 (p_alpha v)) (fun _ => 0) E y n p v w d s0 js Xw). split; [exists d, s0, js, Xw; split; [exact HC|reflexivity]|].
  destruct HT as [HT|HT]; [left; exact HT|right]. intros eps (FG & FW & HE). destruct HC as (EI & _ & _ & HO & _ & HS).
  apply (certified prec emax Hp Hm m df ds d n p E y w Xw (fun j g _ => GE d Xw j g EI) (history prec emax o dm df (l1_penalty o) ds d (L1 (p_alpha v)) p js s0) (p_alpha v) (p_tolerance v) Pn Fa Ha Ft LW FW (TR d js s0 (w, Xw) HO HS) HT).
  - intros j g Hj Eg. exact (fin_nan g (FG j g Hj Eg)).
  - intros j Hj. specialize (HE j Hj). rewrite Rplus_0_r in HE. exact HE.
Qed.
Lemma stat_enet w (Ha : 0 < B2R (p_alpha v)) (Fr : finite (p_shape v)) (Hr : 0 <= B2R (p_shape v) <= 1)
  (TR : forall d js s0 s1, origin prec emax o dm ds p n s0 -> foldM (cd_step o dm df (l1l2_penalty o) ds d (L1PlusL2 (p_alpha v) (p_shape v))) js s0 = Ret s1 -> tracks prec emax E p n (history prec emax o dm df (l1l2_penalty o) ds d (L1PlusL2 (p_alpha v) (p_shape v)) p js s0) s1) :
  solve o srt dm df (l1l2_penalty o) st ds (quadratic_new o) (L1PlusL2 (p_alpha v) (p_shape v)) = Ret w ->
  exists k W, (exists d s0 js Xw, course prec emax Hp Hm m dm df (l1l2_penalty o) ds (L1PlusL2 (p_alpha v) (p_shape v)) n p v w d k s0 js Xw /\
      W = resolves prec emax Hp Hm m dm df (l1l2_penalty o) ds (L1PlusL2 (p_alpha v) (p_shape v)) (pen_slack prec emax (B2R (p_alpha v)) (B2R (p_shape v))) E y n p v w d s0 js Xw) /\
    (k = p_max_iterations v \/ forall eps, W eps -> stationary eps (loss1 Squared n y) p E (pen1 (EnetPen (B2R (p_alpha v)) (B2R (p_shape v)))) (atR w)).
Proof using VS NF NS Pn GE Fa Ft.
  intros EF. destruct (runs (l1l2_penalty o) _ w (one_enet o _) EF) as (d & k & s0 & js & Xw & HC & LW & HT).
  exists k, (resolves prec emax Hp Hm m dm df (l1l2_penalty o) ds (L1PlusL2 (p_alpha v) (p_shape v)) (pen_slack prec emax (B2R (p_alpha v)) (B2R (p_shape v))) E y n p v w d s0 js Xw). split; [exists d, s0, js, Xw; split; [exact HC|reflexivity]|].
  destruct HT as [HT|HT]; [left; exact HT|right]. intros eps (FG & FW & HE). destruct HC as (EI & _ & _ & HO & _ & HS).
  exact (certified_en prec emax Hp Hm m df ds n p E y (p_alpha v) (p_shape v) Fa Fr Ha Hr d w Xw (history prec emax o dm df (l1l2_penalty o) ds d (L1PlusL2 (p_alpha v) (p_shape v)) p js s0) (p_tolerance v) (fun j g _ => GE d Xw j g EI) Pn Ft LW FW (TR d js s0 (w, Xw) HO HS) HT FG eps HE).
Qed.
End G.

Lemma float_stationary n p E y pen v w C : (0 < n)%nat -> float_fit prec emax Hp Hm m n p E y pen v w C ->
  (pen1_range pen /\ convex1 pen /\ l1_weight pen (weight1 pen)) /\
  exists k W, C k W /\ (k = p_max_iterations v \/ forall eps, W eps -> stationary eps (loss1 Squared n y) p E (pen1 pen) (atR w)).
Proof.
  intros Pn H.
  assert (NSt : forall t : targets bf, target1_wf n t -> n_samples t = n) by (intros [t|t] WT; [exact WT|exact (proj1 WT)]).
  destruct H as [srt X t v w RD VS Hn SX WT Fa Ha Ft HE Hy EF|srt cs X t v w VS Hn ST WT Fa Ha Ft HE Hy EF|srt X t v w RD VS Hn SX WT Fa Ha Fr Hr Ft HE Hy EF|srt cs X t v w VS Hn ST WT Fa Ha Fr Hr Ft HE Hy EF].
  - split; [split; [exact Ha|split; [exact I|reflexivity]]|].
    destruct (stat_lasso (dense_dm o) (quad_dense o) (Dataset X t) n p (entR prec emax X) (tgt t) v srt VS) with (w := w) as (k & W & HC & HK); auto.
    + destruct SX as (_ & C & _). cbn [dense_dm dm_n_features design_matrix]. rewrite C. reflexivity.
    + intros d Xw j g EI EG Fg. exact (dense_ge prec emax Hp Hm m RD n p X t (quadratic_new o) d Xw j g Hn SX WT EI EG Fg).
    + intros d js s0 s1. apply (c82_dense prec emax Hp Hm m RD); exact SX.
    + exists k, W. split; [exact HC|]. destruct HK as [HK|HK]; [left; exact HK|right]. intros eps HW. eapply stationary_ext; [exact Pn|exact HE|exact Hy|]. exact (HK eps HW).
  - split; [split; [exact Ha|split; [exact I|reflexivity]]|].
    destruct (stat_lasso (sparse_dm o) (quad_sparse o) (Dataset X t) n p (storedR prec emax cs) (tgt t) v srt VS) with (w := w) as (k & W & HC & HK); auto.
    + cbn [sparse_dm dm_n_features design_matrix]. unfold csc_n_features. rewrite (proj1 ST). cbn. reflexivity.
    + intros d Xw j g EI EG Fg. exact (sparse_ge prec emax Hp Hm m n p cs X ST t (quadratic_new o) d Xw j g Hn WT EI EG Fg).
    + intros d js s0 s1. apply (c82_sparse prec emax Hp Hm m); exact ST.
    + exists k, W. split; [exact HC|]. destruct HK as [HK|HK]; [left; exact HK|right]. intros eps HW. eapply stationary_ext; [exact Pn|exact HE|exact Hy|]. exact (HK eps HW).
  - split; [split; [split; [lra|exact Hr]|split; [exact I|reflexivity]]|].
    destruct (stat_enet (dense_dm o) (quad_dense o) (Dataset X t) n p (entR prec emax X) (tgt t) v srt VS) with (w := w) as (k & W & HC & HK); auto.
    + destruct SX as (_ & C & _). cbn [dense_dm dm_n_features design_matrix]. rewrite C. reflexivity.
    + intros d Xw j g EI EG Fg. exact (dense_ge prec emax Hp Hm m RD n p X t (quadratic_new o) d Xw j g Hn SX WT EI EG Fg).
    + intros d js s0 s1. apply (c82_dense prec emax Hp Hm m RD); exact SX.
    + exists k, W. split; [exact HC|]. destruct HK as [HK|HK]; [left; exact HK|right]. intros eps HW. eapply stationary_ext; [exact Pn|exact HE|exact Hy|]. exact (HK eps HW).
  - split; [split; [split; [lra|exact Hr]|split; [exact I|reflexivity]]|].
    destruct (stat_enet (sparse_dm o) (quad_sparse o) (Dataset X t) n p (storedR prec emax cs) (tgt t) v srt VS) with (w := w) as (k & W & HC & HK); auto.
    + cbn [sparse_dm dm_n_features design_matrix]. unfold csc_n_features. rewrite (proj1 ST). cbn. reflexivity.
    + intros d Xw j g EI EG Fg. exact (sparse_ge prec emax Hp Hm m n p cs X ST t (quadratic_new o) d Xw j g Hn WT EI EG Fg).
    + intros d js s0 s1. apply (c82_sparse prec emax Hp Hm m); exact ST.
    + exists k, W. split; [exact HC|]. destruct HK as [HK|HK]; [left; exact HK|right]. intros eps HW. eapply stationary_ext; [exact Pn|exact HE|exact Hy|]. exact (HK eps HW).
Qed.
End I.

Lemma c102 prec emax Hp Hm m prec' emax' Hp' Hm' m' n p E y k k' v v' w w' C C' : (0 < n)%nat ->
  float_fit prec emax Hp Hm m n p E y k v w C -> float_fit prec' emax' Hp' Hm' m' n p E y k' v' w' C' ->
  let a := atR prec emax w in let b := atR prec' emax' w' in
  exists N W N' W', C N W /\ C' N' W' /\
    (N = p_max_iterations v \/ N' = p_max_iterations v' \/ forall e e', W e -> W' e' ->
      Sum n (fun i => (lin p E a i - lin p E b i) ^ 2) / INR n <=
        (e + e' + Rabs (weight1 k - weight1 k')) * Sum p (fun j => Rabs (a j - b j)) + Rabs (ridge k - ridge k') * Sum p (fun j => Rabs (b j) * Rabs (a j - b j)) /\
      (0 < ridge k -> ridge k * sqrt (Sum p (fun j => (a j - b j) ^ 2)) <=
        sqrt (INR p) * (e + e' + Rabs (weight1 k - weight1 k')) + Rabs (ridge k - ridge k') * sqrt (Sum p (fun j => b j ^ 2)))).
Proof.
  intros Pn H H' a b. destruct (float_stationary prec emax Hp Hm m n p E y k v w C Pn H) as ((R1 & C1 & L1) & N & W & HC & HN).
  destruct (float_stationary prec' emax' Hp' Hm' m' n p E y k' v' w' C' Pn H') as ((R2 & C2 & L2) & N' & W' & HC' & HN').
  exists N, W, N', W'. split; [exact HC|]. split; [exact HC'|]. destruct HN as [HN|HN]; [left; exact HN|right]. destruct HN' as [HN'|HN']; [left; exact HN'|right].
  intros e e' We We'. specialize (HN e We). specialize (HN' e' We'). fold a in HN. fold b in HN'. split.
  - pose proof (c100_predictions n p E y k k' _ _ e e' a b Pn R1 R2 C1 C2 L1 L2 HN HN') as Q. unfold msp in Q.
    rewrite (Sum_ext n _ (fun i => lin p E (fun j => a j - b j) i ^ 2)); [lra|]. intros i _. rewrite lin_minus. reflexivity.
  - intros Hg. destruct p as [|p].
    + rewrite !Sum_0, sqrt_0. pose proof (Rabs_pos (ridge k - ridge k')). cbn [INR]. rewrite sqrt_0. lra.
    + apply (c100_coefficients Squared n (S p) Pn E y k k' (weight1 k) (weight1 k') e e' a b); auto.
      pose proof (stationary_nonneg _ _ _ _ _ _ _ C1 (Nat.lt_0_succ p) HN). pose proof (stationary_nonneg _ _ _ _ _ _ _ C2 (Nat.lt_0_succ p) HN'). lra.
Qed.
Lemma c102_same prec emax Hp Hm m prec' emax' Hp' Hm' m' n p E y k v v' w w' C C' : (0 < n)%nat ->
  float_fit prec emax Hp Hm m n p E y k v w C -> float_fit prec' emax' Hp' Hm' m' n p E y k v' w' C' ->
  let a := atR prec emax w in let b := atR prec' emax' w' in
  exists N W N' W', C N W /\ C' N' W' /\
    (N = p_max_iterations v \/ N' = p_max_iterations v' \/ forall e e', W e -> W' e' ->
      Sum n (fun i => (lin p E a i - lin p E b i) ^ 2) / INR n <= (e + e') * Sum p (fun j => Rabs (a j - b j)) /\
      (0 < ridge k -> ridge k * sqrt (Sum p (fun j => (a j - b j) ^ 2)) <= sqrt (INR p) * (e + e'))).
Proof.
  intros Pn H H' a b. destruct (c102 prec emax Hp Hm m prec' emax' Hp' Hm' m' n p E y k k v v' w w' C C' Pn H H') as (N & W & N' & W' & HC & HC' & Q).
  exists N, W, N', W'. split; [exact HC|]. split; [exact HC'|]. destruct Q as [Q|[Q|Q]]; [left; exact Q|right; left; exact Q|right; right]. intros e e' We We'. specialize (Q e e' We We').
  rewrite !Rminus_diag_eq, Rabs_R0 in Q by reflexivity. fold a b in Q. destruct Q as (Q1 & Q2). split; [lra|]. intros Hg. specialize (Q2 Hg). lra.
Qed.
