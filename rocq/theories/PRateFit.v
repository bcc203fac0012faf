(** Convergence rates of fits. *)
From Coq Require Import List ZArith Bool Arith Reals Lra Lia.
From Verif Require Import Ops Arr XR SpecPen VecR MUtils MHyper MEstimators MCd PBase RSum SpecLin SpecData PDatafit PCalc PDataProps PAnderson SpecSolve PStruct PNoPanic PLaws PRef PRefCD PRefPen PSim PFit PSubdiff PSubdiffBlock PSymProps PDescent PConv PTheory SpecOpt PFitOpt PCert SpecBudget PBudget PRate.
Import ListNotations.
Open Scope R_scope.

(** *** strong convexity of the elastic net *)
Lemma enet_strong a r u v t : 0 <= a -> 0 <= r <= 1 -> 0 <= t <= 1 ->
  enet_pen a r (u + t * (v - u)) <= (1 - t) * enet_pen a r u + t * enet_pen a r v - a * (1 - r) / 2 * (t * (1 - t) * (v - u) ^ 2).
Proof.
  intros Ha Hr Ht. unfold enet_pen. pose proof (abs_convex 1 ltac:(lra) u v t Ht) as H1. unfold abs_pen in H1. rewrite !Rmult_1_l in H1.
  apply (Rmult_le_compat_l (a * r)) in H1; [|apply Rmult_le_pos; lra].
  set (A := Rabs (u + t * (v - u))) in *. replace ((u + t * (v - u)) ^ 2) with ((1 - t) * u ^ 2 + t * v ^ 2 - t * (1 - t) * (v - u) ^ 2) by ring. lra.
Qed.
Lemma subgrad_strong a r w s : 0 <= a -> 0 <= r <= 1 -> subgrad (enet_pen a r) w s -> forall x, enet_pen a r w + s * (x - w) + a * (1 - r) / 2 * (x - w) ^ 2 <= enet_pen a r x.
Proof.
  intros Ha Hr (m & Hm & H) x. set (g := a * (1 - r) / 2). assert (Hg : 0 <= g) by (unfold g; assert (0 <= a * (1 - r)) by (apply Rmult_le_pos; lra); lra).
  apply (vanish _ ((m + g) * (x - w) ^ 2)); [apply Rmult_le_pos; [lra|apply pow2_ge_0]|]. intros t Ht.
  specialize (H (w + t * (x - w))). pose proof (enet_strong a r w x t Ha Hr ltac:(lra)) as HC. fold g in HC. replace (w + t * (x - w) - w) with (t * (x - w)) in H by ring.
  apply Rmult_le_reg_l with t; [lra|]. rewrite Rpow_mult_distr in H. set (d := (x - w) ^ 2) in *. replace (t ^ 2) with (t * t) in H by ring. nra.
Qed.
Lemma enet_gap l a r n p X y eps w v : (1 <= n)%nat -> 0 <= a -> 0 <= r <= 1 -> 0 < a * (1 - r) -> 0 < eps -> stationary eps (loss1 l n y) p X (pen1 (EnetPen a r)) w ->
  2 * (a * (1 - r)) * (objective (loss1 l n y) p X (pen1 (EnetPen a r)) w - objective (loss1 l n y) p X (pen1 (EnetPen a r)) v) <= INR p * eps ^ 2.
Proof.
  intros Hn Ha Hr Hg Heps Hst. unfold objective. assert (Q := loss1_convex l n p X y w v Hn). set (g := a * (1 - r)) in *.
  assert (A : Sum p (fun j => pen1 (EnetPen a r) (w j)) <= Sum p (fun j => pen1 (EnetPen a r) (v j)) + Sum p (fun j => dloss1 n p l X y w j * (v j - w j)) + Sum p (fun _ => eps ^ 2 / (2 * g))).
  { rewrite <- !Sum_plus. apply Sum_le. intros j Hj. destruct (Hst j Hj) as (d & (gr & Dg & (_ & s & Hs & Ed)) & Hd).
    assert (gr = dloss1 n p l X y w j) as -> by (eapply uniqueness_limite; [exact Dg|apply loss1_deriv; auto]).
    cbn [pen1] in *. pose proof (subgrad_strong _ _ _ _ Ha Hr Hs (v j)) as HG. fold g in HG. set (G := dloss1 n p l X y w j) in *.
    assert (E : s * (v j - w j) = - G * (v j - w j) - (- G - s) * (v j - w j)) by ring.
    assert (HB : (- G - s) * (v j - w j) <= eps * Rabs (v j - w j)).
    { apply Rle_trans with (1 := Rle_abs _). rewrite Rabs_mult, Ed. apply Rmult_le_compat_r; [apply Rabs_pos|auto]. }
    assert (HY : eps * Rabs (v j - w j) <= eps ^ 2 / (2 * g) + g / 2 * (v j - w j) ^ 2).
    { rewrite <- (pow2_abs (v j - w j)). set (x := Rabs (v j - w j)). pose proof (pow2_ge_0 (eps - g * x)) as Hsq.
      apply Rmult_le_reg_l with (2 * g); [lra|]. replace (2 * g * (eps ^ 2 / (2 * g) + g / 2 * x ^ 2)) with (eps ^ 2 + g ^ 2 * x ^ 2) by (field; lra). nra. }
    lra. }
  assert (E : Sum p (fun _ => eps ^ 2 / (2 * g)) = INR p * (eps ^ 2 / (2 * g))) by (clear; induction p as [|q IH]; [rewrite Sum_0; simpl; lra|rewrite Sum_S, IH, S_INR; ring]).
  rewrite E in A. apply Rle_trans with (2 * g * (INR p * (eps ^ 2 / (2 * g)))); [apply Rmult_le_compat_l; lra|right; field; lra].
Qed.
(** a minimiser is unique, with quadratic growth of the objective *)
Lemma enet_growth l a r n p X y u w : (1 <= n)%nat -> 0 <= a -> 0 <= r <= 1 ->
  (forall v, objective (loss1 l n y) p X (pen1 (EnetPen a r)) u <= objective (loss1 l n y) p X (pen1 (EnetPen a r)) v) ->
  a * (1 - r) / 2 * Sum p (fun j => (w j - u j) ^ 2) <= objective (loss1 l n y) p X (pen1 (EnetPen a r)) w - objective (loss1 l n y) p X (pen1 (EnetPen a r)) u.
Proof.
  intros Hn Ha Hr Hmin. set (g := a * (1 - r) / 2). assert (Hg : 0 <= g) by (unfold g; assert (0 <= a * (1 - r)) by (apply Rmult_le_pos; lra); lra).
  set (D := Sum p (fun j => (w j - u j) ^ 2)). assert (HD : 0 <= D) by (apply Sum_nonneg; intros; apply pow2_ge_0).
  apply (vanish _ (g * D)); [apply Rmult_le_pos; auto|]. intros t Ht. set (z := fun j => u j + t * (w j - u j)).
  assert (HZ := Hmin z). assert (Q1 := loss1_convex l n p X y z w Hn). assert (Q2 := loss1_convex l n p X y z u Hn).
  unfold objective in *. cbn [pen1] in *.
  assert (EP : Sum p (fun j => enet_pen a r (z j)) <= (1 - t) * Sum p (fun j => enet_pen a r (u j)) + t * Sum p (fun j => enet_pen a r (w j)) - g * (t * (1 - t) * D)).
  { unfold D. rewrite <- !Sum_scal, <- Sum_plus, <- Sum_minus. apply Sum_le. intros j Hj. unfold z. pose proof (enet_strong a r (u j) (w j) t Ha Hr ltac:(lra)) as HE. fold g in HE. lra. }
  pose (G := fun j => dloss1 n p l X y z j).
  assert (E1 : Sum p (fun j => dloss1 n p l X y z j * (w j - z j)) = (1 - t) * Sum p (fun j => G j * (w j - u j))) by (rewrite <- Sum_scal; apply Sum_ext; intros; unfold G, z; ring).
  assert (E2 : Sum p (fun j => dloss1 n p l X y z j * (u j - z j)) = - t * Sum p (fun j => G j * (w j - u j))) by (rewrite <- Sum_scal; apply Sum_ext; intros; unfold G, z; ring).
  rewrite E1 in Q1. rewrite E2 in Q2. set (S := Sum p (fun j => G j * (w j - u j))) in *.
  set (Lz := loss1 l n y (lin p X z)) in *. set (Lw := loss1 l n y (lin p X w)) in *. set (Lu := loss1 l n y (lin p X u)) in *.
  assert (HLz : Lz <= (1 - t) * Lu + t * Lw) by nra. apply Rmult_le_reg_l with t; [lra|]. nra.
Qed.

Lemma ridge_gap l k n p X y eps w v : (1 <= n)%nat -> pen1_range k -> 0 < ridge k -> 0 < eps -> stationary eps (loss1 l n y) p X (pen1 k) w ->
  2 * ridge k * (objective (loss1 l n y) p X (pen1 k) w - objective (loss1 l n y) p X (pen1 k) v) <= INR p * eps ^ 2.
Proof. destruct k as [a|a r|a g]; cbn [ridge pen1_range]; intros Hn Hr Hg; [lra| |lra]. apply enet_gap; tauto. Qed.
Lemma ridge_growth l k n p X y u w : (1 <= n)%nat -> pen1_range k -> 0 < ridge k ->
  (forall v, objective (loss1 l n y) p X (pen1 k) u <= objective (loss1 l n y) p X (pen1 k) v) ->
  ridge k / 2 * Sum p (fun j => (w j - u j) ^ 2) <= objective (loss1 l n y) p X (pen1 k) w - objective (loss1 l n y) p X (pen1 k) u.
Proof. destruct k as [a|a r|a g]; cbn [ridge pen1_range]; intros Hn Hr Hg; [lra| |lra]. apply enet_growth; tauto. Qed.

(** *** single-task fits *)
Section One.
Variables (srt : list xr -> list nat) (VS : valid_sort xops srt) (n p : nat) (Hn : (1 <= n)%nat).
Variables (X : rmat) (y : nat -> R) (l : single_loss) (k : single_pen) (s : solver xr) (fit : nat -> res (result (list xr) (estimator_error xr))).
Hypotheses (HF : single_fit srt n p X y l k s fit) (Hy : targets_ok l n y) (Hcx : convex1 k).
Let PB := prob1 l k n p X y.
Variables (M mu : R).
Hypotheses (HM0 : 0 < M) (HM : forall j, (j < p)%nat -> mean_square n X j <= M) (Hmu0 : 0 < mu)
  (Hmu : forall j, (j < p)%nat -> nonzero_column n X j -> mu <= total_curvature k (curvature l n X j)).
Variables (tol : R) (N : nat) (v : list xr).
Hypotheses (Et : s_tolerance s = Fin tol) (Hw : (1 <= s_ws_start_size s)%nat) (Hme : (1 <= s_max_epochs s)%nat)
  (Hcal : calm_schedule (s_use_acceleration s) (s_K s) (s_max_epochs s)) (Hv : fit N = Ret (Ok v)).
Local Notation objf := (objective (loss1 l n y) p X (pen1 k)).
Local Notation C := (INR (p + 1) * M + ridge k).
Local Notation st0 := ((fun _ _ => 0, fun _ _ => 0) : rmat * rmat).
Local Notation go := (router PB srt (Fin tol) (s_K s) (s_use_acceleration s) (Nat.min (s_ws_start_size s) p) (s_max_epochs s)).

Definition rate_facts : Prop :=
  data_theory PB /\ pen_theory (pT PB) (pprox PB) (ppv PB) (okstep1 k) (c1 k) /\ score_theory (pT PB) (ppv PB) (pdist PB) /\
  (forall j, (j < pp PB)%nat -> pL PB j <> 0 -> okstep1 k (1 / pL PB j)) /\
  (forall Z j i d, (j < pp PB)%nat -> (i < pp PB)%nat -> norm2 (vminus (row PB (pg PB (shift (pX PB) Z j d)) i) (row PB (pg PB Z) i)) <= M * norm2 (tab (pT PB) d)) /\
  (forall j, (j < pp PB)%nat -> live PB j -> mu / 2 <= kap PB (c1 k) j) /\
  (forall j, (j < pp PB)%nat -> pL PB j <= M + ridge k) /\
  (forall j, (j < pp PB)%nat -> live PB j -> zero_moves (pT PB) (pprox PB) (pdist PB) (pL PB j) (M + ridge k)).
Lemma rate_ctx : pen1_range k -> rate_facts.
Proof.
  intros Hr. assert (Hle : steps_ok Rle k l n p X) by (destruct k; cbn in *; tauto).
  assert (HS : forall j, (j < pp PB)%nat -> pL PB j <> 0 -> okstep1 k (1 / pL PB j)) by (unfold PB; rewrite prob1_p; apply prob1_steps; auto).
  assert (Hri : 0 <= ridge k) by (destruct k; cbn [ridge pen1_range] in *; try lra; apply Rmult_le_pos; lra).
  split; [exact (prob1_data n p Hn l k X y Hy)|]. split; [exact (prob1_pen n p l k X y Hr)|]. split; [unfold PB; destruct l; apply (pen1_scores k Hr)|]. split; [exact HS|].
  split; [|split; [|split]].
  - unfold PB. rewrite prob1_p, prob1_X, prob1_T. intros Z i j d Hi Hj. unfold targets_ok in Hy.
    apply Rle_trans with (Sum n (fun q => Rabs (X q j) * Rabs (X q i)) / INR n * norm2 (tab 1 d)).
    + destruct l; [apply (quad_lip_term n p 1 X (fun i _ => y i) (lprox (prox1 k)) (lpv (pen1 k)) (ldist (dist1 k))); auto|apply (log_lip_term n p X y (prox1 k) (pen1 k) (dist1 k)); auto].
    + apply Rmult_le_compat_r; [apply norm2_pos|]. apply cross_bound; auto.
  - unfold PB at 1. rewrite prob1_p. unfold live, kap, PB. intros j Hj. rewrite prob1_L. intros Hl. pose proof (curv_nonneg n Hn l X j) as Hc.
    specialize (Hmu j Hj (curv_live n Hn l X j Hl)). destruct k as [a|a r|a g]; cbn [c1 total_curvature pen1_range] in *; [lra| |contradiction].
    replace ((1 + 1 / curvature l n X j * (1 - r) * a) * curvature l n X j / 2) with ((curvature l n X j + a * (1 - r)) / 2) by (field; auto). lra.
  - unfold PB at 1. rewrite prob1_p. unfold PB. intros j Hj. rewrite prob1_L. pose proof (curvature_mean n X l j Hn). specialize (HM j Hj). lra.
  - unfold PB at 1. rewrite prob1_p. intros j Hj Hl. unfold live in Hl. pose proof (curv_nonneg n Hn l X j) as Hc.
    pose proof (curvature_mean n X l j Hn) as Hcm. specialize (HM j Hj).
    assert (HL : 0 < pL PB j) by (unfold PB in *; rewrite prob1_L in *; lra).
    assert (Hcl : pL PB j <= M) by (unfold PB; rewrite prob1_L; lra).
    assert (Q : zero_moves 1 (lprox (prox1 k)) (ldist (dist1 k)) (pL PB j) (pL PB j + ridge k)).
    { destruct k as [a|a r|a g]; cbn [pen1_range prox1 dist1 ridge convex1] in *; rewrite ?Rplus_0_r; [| |contradiction].
      - apply l1_moves; auto.
      - rewrite (Rmult_comm a). apply l1l2_moves; tauto. }
    assert (Q' : zero_moves 1 (lprox (prox1 k)) (ldist (dist1 k)) (pL PB j) (M + ridge k)).
    { intros g Hgl. apply Rle_trans with (1 := Q g Hgl). apply Rmult_le_compat_r; [apply norm2_pos|lra]. }
    unfold PB in *. destruct l; exact Q'.
Qed.
Lemma rate_start : exists W Z, pen1_range k /\ go N (fun _ _ => 0) (fun _ _ => 0) = Ret (W, Z) /\ v = xv p (fun j => W j 0%nat) /\ fitted PB (W, Z).
Proof.
  assert (Hle : steps_ok Rle k l n p X) by (destruct k; cbn in *; tauto).
  destruct (inv1 srt VS n p Hn X y l k s fit HF Hy Hle N v Hv) as (Hr & W & Z & Er & -> & Hf & _). exists W, Z. rewrite Et in Er. unfold rsolve in Er.
  split; auto. split; [|split; auto]. unfold PB. rewrite prob1_p in Er. exact Er.
Qed.
Lemma calmed_start H B k0 : calmed PB H B k0 (obj PB st0) st0.
Proof.
  split; [apply start_fitted|]. intros eps He. split; [intros ? ? ? ? ?; reflexivity|]. split; [apply Rle_refl|]. intros _ j Hj Hnz. apply nz_row_true in Hnz. exfalso. apply Hnz. apply tab_zero. reflexivity.
Qed.
Lemma C_eq : M + ridge k + INR (pp PB) * M = C.
Proof. unfold PB. rewrite prob1_p, plus_INR. change (INR 1) with 1. ring. Qed.
Lemma min_ws : p <> 0%nat -> (1 <= Nat.min (s_ws_start_size s) p <= pp PB)%nat.
Proof. intros. unfold PB. rewrite prob1_p. lia. Qed.
Lemma c97_linear : 0 < ridge k -> exists w, v = xv p w /\ (stationary tol (loss1 l n y) p X (pen1 k) w \/
  forall u, objf w - objf u <= (INR p * C ^ 2 / (INR p * C ^ 2 + ridge k * mu)) ^ (N / 2) * (objf (fun _ => 0) - objf u)).
Proof.
  intros Hg. destruct rate_start as (W & Z & Hr & Hrun & Ev & Hf). exists (fun j => W j 0%nat). split; auto.
  destruct (Nat.eq_dec p 0) as [E0|E0]; [left; intros j Hj; lia|].
  destruct (rate_ctx Hr) as (DT & PT & ST & HS & HH & HK & HB & HZ).
  assert (Hp : 0 < INR p) by (apply lt_0_INR; lia).
  destruct (done_dec PB tol (W, Z)) as [Hd|Hd]; [left; eapply done_stationary; eauto|right]. intros u.
  destruct (rate_linear PB _ _ srt VS DT PT ST HS M (M + ridge k) (mu / 2) ltac:(lra) ltac:(lra) ltac:(lra) HH HK HB HZ tol (s_K s) (s_use_acceleration s) _ (s_max_epochs s) (min_ws E0) Hme (calm_of n Hn _ _ _ Hcal)
    (objf u) (2 * ridge k / INR p) ltac:(apply Rdiv_lt_0_compat; lra)) with (m := (N / 2)%nat) (N := N) (o := obj PB st0) (st := st0) (fin := (W, Z)) as [Hd'|HR].
  - intros eps [W' Z'] He Hf' _ Hd'. unfold PB in Hd'. apply done_stationary in Hd'; [|auto|auto|exact Hf'].
    apply Rmult_le_reg_l with (INR p); auto. unfold PB. rewrite prob1_obj by exact Hf'.
    apply Rle_trans with (2 := ridge_gap l k n p X y eps (fun j => W' j 0%nat) u Hn Hr Hg He Hd'). right. field. lra.
  - apply Nat.mul_div_le. lia.
  - apply Rle_refl.
  - apply calmed_start.
  - exact Hrun.
  - contradiction.
  - unfold PB in HR. rewrite prob1_obj, prob1_obj0 in HR by exact Hf. apply Rle_trans with (1 := HR). right. f_equal. f_equal.
    fold PB. rewrite C_eq.
    assert (0 <= INR p * C ^ 2) by (apply Rmult_le_pos; [lra|apply pow2_ge_0]). assert (0 < ridge k * mu) by (apply Rmult_lt_0_compat; lra).
    assert (0 <= C ^ 2) by apply pow2_ge_0. assert (0 < 2 * ridge k / INR p * (mu / 2)) by (apply Rmult_lt_0_compat; [apply Rdiv_lt_0_compat|]; lra).
    set (c2 := C ^ 2) in *. replace (2 * ridge k / INR p * (mu / 2)) with (ridge k * mu / INR p) in * by (field; lra). field. repeat split; try lra.
Qed.
Lemma c97_coefficients : 0 < ridge k -> exists w, v = xv p w /\ (stationary tol (loss1 l n y) p X (pen1 k) w \/
  forall u, (forall u', objf u <= objf u') ->
    ridge k / 2 * Sum p (fun j => (w j - u j) ^ 2) <= (INR p * C ^ 2 / (INR p * C ^ 2 + ridge k * mu)) ^ (N / 2) * (objf (fun _ => 0) - objf u)).
Proof.
  intros Hg. destruct (c97_linear Hg) as (w & Ev & [Hs|HR]); exists w; split; auto. right. intros u Hu. apply Rle_trans with (2 := HR u).
  destruct rate_start as (_ & _ & Hr & _). apply ridge_growth; auto.
Qed.
Lemma c98_sublinear c : l1_weight k c -> 0 < c -> exists w, v = xv p w /\ (stationary tol (loss1 l n y) p X (pen1 k) w \/
  forall u, objf w - objf u <= (16 * (objf (fun _ => 0) * C / c) ^ 2 / mu + objf (fun _ => 0)) / INR (S (N / 2))).
Proof.
  intros Hlw Hc. destruct rate_start as (W & Z & Hr & Hrun & Ev & Hf). exists (fun j => W j 0%nat). split; auto.
  destruct (Nat.eq_dec p 0) as [E0|E0]; [left; intros j Hj; lia|].
  destruct (rate_ctx Hr) as (DT & PT & ST & HS & HH & HK & HB & HZ).
  destruct (done_dec PB tol (W, Z)) as [Hd|Hd]; [left; eapply done_stationary; eauto|right]. intros u.
  assert (Hri : 0 <= ridge k) by (destruct k; cbn [ridge pen1_range] in *; try lra; apply Rmult_le_pos; lra).
  assert (HC : 0 < C) by (assert (0 < INR (p + 1) * M) by (apply Rmult_lt_0_compat; auto; apply lt_0_INR; lia); lra).
  set (o0 := objf (fun _ => 0)) in *.
  assert (Ho0 : 0 <= o0).
  { unfold o0. rewrite <- prob1_obj0. apply (obj_nonneg (prob1 l k n p X y) _ _ DT PT). }
  assert (Hn0 : forall z, 0 <= objf z).
  { intros z. unfold objective. pose proof (loss1_nonneg l n y (lin p X z) Hn). assert (0 <= Sum p (fun j => pen1 k (z j))) by (apply Sum_nonneg; intros i _; apply Rle_trans with (2 := pen1_l1 k c (z i) Hr Hlw); apply Rmult_le_pos; [lra|apply Rabs_pos]). lra. }
  destruct (Req_dec o0 0) as [Ez|Ez].
  { (* the zero model has objective zero *)
    destruct (inv1 srt VS n p Hn X y l k s fit HF Hy ltac:(destruct k; cbn in *; tauto) N v Hv) as (_ & W' & Z' & _ & E' & _ & _ & HO). fold o0 in HO.
    rewrite Ev in E'. assert (E1 := xv_inj p _ _ E').
    rewrite (objf_ext srt n p X y l k s fit HF Hy ltac:(destruct k; cbn in *; tauto) (fun j => W j 0%nat) (fun j => W' j 0%nat)) by exact E1.
    rewrite Ez. replace (16 * (0 * C / c) ^ 2 / mu + 0) with 0 by (field; lra). unfold Rdiv at 1. rewrite Rmult_0_l. specialize (Hn0 u). lra. }
  set (Q := 16 * (o0 * C / c) ^ 2 / mu + o0).
  assert (HQ1 : 0 <= 16 * (o0 * C / c) ^ 2 / mu) by (apply Rmult_le_pos; [apply Rmult_le_pos; [lra|apply pow2_ge_0]|left; apply Rinv_0_lt_compat; auto]).
  destruct (rate_sublinear PB _ _ srt VS DT PT ST HS M (M + ridge k) (mu / 2) ltac:(lra) ltac:(lra) ltac:(lra) HH HK HB HZ tol (s_K s) (s_use_acceleration s) _ (s_max_epochs s) (min_ws E0) Hme (calm_of n Hn _ _ _ Hcal)
    (objf u) (2 * o0 / c) ltac:(apply Rdiv_lt_0_compat; lra)) with (Q := Q) (m := (N / 2)%nat) (i := 0%nat) (N := N) (o := obj PB st0) (st := st0) (fin := (W, Z)) as [Hd'|HR].
  - intros eps [W' Z'] He Hf' HO Hd'. unfold PB in *. apply done_stationary in Hd'; [|auto|auto|exact Hf']. rewrite prob1_obj, prob1_obj0 in HO by exact Hf'. rewrite prob1_obj by exact Hf'.
    assert (Q' := c28_gap l k c n p X y eps (fun j => W' j 0%nat) u Hn Hr Hlw Hc ltac:(lra) Hd' HO). fold o0 in Q'. replace (2 * o0 / c * eps) with (2 * eps * o0 / c) by (field; lra). lra.
  - rewrite C_eq. unfold Q. apply Rle_trans with (16 * (o0 * C / c) ^ 2 / mu); [right; field; lra|lra].
  - apply Nat.mul_div_le. lia.
  - apply Rle_refl.
  - unfold PB. rewrite prob1_obj0. fold o0. change (INR 1) with 1. specialize (Hn0 u). unfold Q. lra.
  - apply calmed_start.
  - exact Hrun.
  - contradiction.
  - unfold PB in HR. rewrite prob1_obj in HR by exact Hf. exact HR.
Qed.
End One.

(** *** the multi-task Lasso *)
Section Many.
Variables (srt : list xr -> list nat) (VS : valid_sort xops srt) (n p : nat) (Hn : (1 <= n)%nat).
Variables (T : nat) (X Y : rmat) (a : R) (s : solver xr) (fit : nat -> res (result (mat xr) (estimator_error xr))).
Hypotheses (HF : multi_fit srt n p T X Y (MtLassoPen a) s fit).
Let PB := probT (MtLassoPen a) n p T X Y.
Variables (M mu : R).
Hypotheses (HM0 : 0 < M) (HM : forall j, (j < p)%nat -> mean_square n X j <= M) (Hmu0 : 0 < mu)
  (Hmu : forall j, (j < p)%nat -> nonzero_column n X j -> mu <= mean_square n X j).
Variables (tol : R) (N : nat) (v : mat xr).
Hypotheses (Et : s_tolerance s = Fin tol) (Hw : (1 <= s_ws_start_size s)%nat) (Hme : (1 <= s_max_epochs s)%nat)
  (Hcal : calm_schedule (s_use_acceleration s) (s_K s) (s_max_epochs s)) (Hv : fit N = Ret (Ok v)).
Local Notation objf := (objective_mt (quad_loss_mt n T Y) p T X (penT (MtLassoPen a))).
Local Notation C := (INR (p + 1) * M).
Local Notation st0 := ((fun _ _ => 0, fun _ _ => 0) : rmat * rmat).
Lemma c98_multi : exists W, v = xm p T W /\ (stationary_mt tol (quad_loss_mt n T Y) p T X (penT (MtLassoPen a)) W \/
  forall U, objf W - objf U <= (16 * (objf (fun _ _ => 0) * C / a) ^ 2 / mu + objf (fun _ _ => 0)) / INR (S (N / 2))).
Proof.
  destruct (invT srt VS n p Hn T X Y (MtLassoPen a) s fit HF I N v Hv) as (W & Z & Hrun & Ev & Hf & _ & HO). exists W. split; auto.
  pose proof (proj1 (multi_run srt VS n p Hn T X Y (MtLassoPen a) s fit HF)) as Ha. rewrite Et in Hrun. unfold rsolve in Hrun.
  destruct (Nat.eq_dec p 0) as [E0|E0]; [left; intros j Hj; lia|].
  assert (DT : data_theory PB) by exact (quad_data n p T X Y (proxT (MtLassoPen a)) (penT (MtLassoPen a)) (distT (MtLassoPen a)) Hn).
  assert (PT : pen_theory (pT PB) (pprox PB) (ppv PB) (okstepT (MtLassoPen a)) (cT (MtLassoPen a))) by exact (penT_theory (MtLassoPen a) T Ha).
  assert (HL : forall j, (j < pp PB)%nat -> pL PB j <> 0 -> okstepT (MtLassoPen a) (1 / pL PB j)) by exact (probT_steps n p Hn (MtLassoPen a) T X Y I).
  assert (EL : forall j, pL PB j = mean_square n X j) by (intros j; cbn [PB probT mtP pL]; rewrite <- curv_Lq; reflexivity).
  cbn [penT_range] in Ha.
  destruct (done_dec PB tol (W, Z)) as [Hd|Hd]; [left; eapply done_stationary_mt; eauto|right]. intros U.
  assert (HC : 0 < C) by (apply Rmult_lt_0_compat; auto; apply lt_0_INR; lia).
  set (o0 := objf (fun _ _ => 0)) in *.
  assert (Hn0 : forall z, 0 <= objf z).
  { intros z. unfold objective_mt. pose proof (quad_mt_nonneg n T Y (lin_mt p X z) Hn).
    assert (0 <= Sum p (fun j => penT (MtLassoPen a) (map (z j) (seq 0 T)))) by (apply Sum_nonneg; intros i _; cbn [penT]; unfold abs_pen; apply Rmult_le_pos; [lra|apply Rabs_pos]). lra. }
  assert (Ho0 : 0 <= o0) by apply Hn0.
  destruct (Req_dec o0 0) as [Ez|Ez].
  { rewrite Ez in *. replace (16 * (0 * C / a) ^ 2 / mu + 0) with 0 by (field; lra). unfold Rdiv at 1. rewrite Rmult_0_l. specialize (Hn0 U). lra. }
  set (Q := 16 * (o0 * C / a) ^ 2 / mu + o0).
  assert (HQ1 : 0 <= 16 * (o0 * C / a) ^ 2 / mu) by (apply Rmult_le_pos; [apply Rmult_le_pos; [lra|apply pow2_ge_0]|left; apply Rinv_0_lt_compat; auto]).
  destruct (rate_sublinear PB _ _ srt VS DT PT) with (best := objf U) (r := 2 * o0 / a) (H := M) (B := M) (k0 := mu / 2) (tol := tol) (K := s_K s) (acc := s_use_acceleration s) (ws0 := Nat.min (s_ws_start_size s) p) (me := s_max_epochs s)
    (Q := Q) (m := (N / 2)%nat) (i := 0%nat) (N := N) (o := obj PB st0) (st := st0) (fin := (W, Z)) as [Hd'|HR]; auto; try lra.
  - apply (l21_scores T a). lra.
  - intros Z0 i j d Hi Hj. apply Rle_trans with (1 := quad_lip_term n p T X Y (proxT (MtLassoPen a)) (penT (MtLassoPen a)) (distT (MtLassoPen a)) Hn Z0 i j d Hi Hj).
    apply Rmult_le_compat_r; [apply norm2_pos|]. apply cross_bound; auto.
  - intros j Hj Hl. unfold live in Hl. unfold kap. cbn [cT]. rewrite EL in *. assert (Q' := Hmu j Hj). rewrite <- (EL j) in Hl. cbn [PB probT mtP pL] in Hl.
    specialize (Q' (Lq_live n X Hn j Hl)). lra.
  - intros j Hj. rewrite EL. auto.
  - intros j Hj Hl. pose proof (da_L PB DT j). unfold live in Hl. intros g Hgl.
    apply Rle_trans with (1 := l21_moves T a (pL PB j) Ha ltac:(lra) g Hgl). apply Rmult_le_compat_r; [apply norm2_pos|]. rewrite EL. auto.
  - cbn [PB probT mtP pp]. lia.
  - apply (calm_of n Hn); auto.
  - apply Rdiv_lt_0_compat; lra.
  - intros eps [W' Z'] He Hf' HO' Hd'. unfold PB in *. eapply done_stationary_mt in Hd'; eauto. rewrite probT_obj, probT_obj0 in HO' by exact Hf'. rewrite probT_obj by exact Hf'.
    assert (Q' := c28_gap_mt (MtLassoPen a) a n p T X Y eps W' U Hn Ha eq_refl Ha ltac:(lra) Hd' HO'). fold o0 in Q'. replace (2 * o0 / a * eps) with (2 * eps * o0 / a) by (field; lra). lra.
  - cbn [PB probT mtP pp]. replace (M + INR p * M) with C by (rewrite plus_INR; change (INR 1) with 1; ring). unfold Q. apply Rle_trans with (16 * (o0 * C / a) ^ 2 / mu); [right; field; lra|lra].
  - apply Nat.mul_div_le. lia.
  - unfold PB. rewrite probT_obj0. fold o0. change (INR 1) with 1. specialize (Hn0 U). unfold Q. lra.
  - split; [apply start_fitted|]. intros eps He. split; [intros ? ? ? ? ?; reflexivity|]. split; [apply Rle_refl|]. intros _ j Hj Hnz. apply nz_row_true in Hnz. exfalso. apply Hnz. apply tab_zero. reflexivity.
  - contradiction.
  - unfold PB in HR. rewrite probT_obj in HR by exact Hf. exact HR.
Qed.
End Many.
