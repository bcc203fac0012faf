(** Redundant columns. *)
From Coq Require Import List ZArith Bool Arith Reals Lra Lia FunctionalExtensionality.
From Verif Require Import Ops Arr MUtils MDatasets MHyper MEstimators XR SpecPen VecR PBase RSum SpecLin SpecData PDatafit PCalc PDataProps SpecSolve PLaws PSubdiff PDescent PConv PTheory SpecOpt PFitOpt PCert SpecBudget PRateFit PMore SpecOracle POracle PSens SpecSample PSample PCols.
Import ListNotations.
Open Scope R_scope.

Lemma Reqb_case a b : reflect (a = b) (Reqb a b).
Proof. destruct (Reqb a b) eqn:E; constructor; [apply Reqb_spec; auto|apply Reqb_false; auto]. Qed.
Lemma Rltb_case a b : reflect (a < b) (Rltb a b).
Proof. destruct (Rltb a b) eqn:E; constructor; [apply Rltb_spec; auto|]. intros H. apply Rltb_spec in H. congruence. Qed.
(** *** the score tells the sign of the gradient *)
Lemma score_sign k c w g t : l1_weight k c -> pen1_range k -> dist1 k w g <= t -> (0 < w -> g <= t - c) /\ (w < 0 -> c - t <= g).
Proof.
  intros Hw Hr H. assert (Q : w <> 0 -> exists x, 0 <= x /\ Rabs (- g - rsign w * (c + x)) <= t).
  { intros Hz. destruct k as [a|a r|a q]; cbn [l1_weight pen1_range dist1] in *; [| |contradiction]; subst c.
    - unfold r_l1_score in H. destruct (Reqb_case w 0); [contradiction|]. exists 0. rewrite Rplus_0_r. lra.
    - unfold r_l1l2_score in H. destruct (Reqb_case w 0); [contradiction|]. exists (a * (1 - r) * Rabs w). split; [apply Rmult_le_pos; [apply Rmult_le_pos; lra|apply Rabs_pos]|].
      rewrite <- (rsign_abs w). replace (rsign w * (a * r + a * (1 - r) * (rsign w * w))) with (a * (rsign w * r + (1 - r) * ((rsign w * rsign w) * w))) by ring.
      replace (rsign w * rsign w) with 1 by (unfold rsign; destruct (Rltb w 0); ring). rewrite Rmult_1_l. exact H. }
  split; intros Hs; destruct (Q ltac:(lra)) as (x & Hx & Hq); unfold rsign in Hq; destruct (Rltb_case w 0); try lra; unfold Rabs in Hq; destruct (Rcase_abs _); lra.
Qed.
(** Lasso: the score in terms of the gradient *)
Lemma score_lasso a w g t : 0 <= a -> 0 <= t -> r_l1_score a w g <= t <-> Rabs g <= a + t /\ (0 < w -> Rabs (- g - a) <= t) /\ (w < 0 -> Rabs (- g + a) <= t).
Proof.
  intros Ha Ht. unfold r_l1_score, rsign. destruct (Reqb_case w 0) as [->|N].
  - unfold Rmax. destruct (Rle_dec _ _); split; intros H; repeat split; try lra.
  - destruct (Rltb_case w 0).
    + replace (- g - -1 * a) with (- g + a) by ring. split; [intros H; repeat split; try lra|intros (_ & _ & H); auto]. unfold Rabs in *. destruct (Rcase_abs _), (Rcase_abs _); lra.
    + replace (- g - 1 * a) with (- g - a) by ring. split; [intros H; repeat split; try lra|intros (_ & H & _); apply H; lra]. unfold Rabs in *. destruct (Rcase_abs _), (Rcase_abs _); lra.
Qed.
Lemma dloss1_multiple l n p X y w j j' b : (1 <= n)%nat -> (forall i, (i < n)%nat -> X i j' = b * X i j) -> dloss1 n p l X y w j' = b * dloss1 n p l X y w j.
Proof.
  intros Hn H. rewrite !dloss1_slope by auto. unfold Rdiv. rewrite <- Rmult_assoc, <- Sum_scal. f_equal. apply Sum_ext. intros i Hi. rewrite H by auto. ring.
Qed.
Section Stat.
Variables (l : single_loss) (n p : nat) (Hn : (1 <= n)%nat) (X : rmat) (y : nat -> R) (j j' : nat) (Hj : (j < p)%nat) (Hj' : (j' < p)%nat) (b t : R) (w : nat -> R).
Hypotheses (HX : forall i, (i < n)%nat -> X i j' = b * X i j) (Ht : 0 < t).
Lemma same_sign k c : l1_weight k c -> pen1_range k -> stationary t (loss1 l n y) p X (pen1 k) w -> 0 <= b -> t < c -> 0 <= w j * w j'.
Proof.
  intros Hw Hr Hst Hb Hc. rewrite (stationary_iff n p Hn) in Hst by auto. pose proof (score_sign k c _ _ t Hw Hr (Hst j Hj)) as [P1 P2]. pose proof (score_sign k c _ _ t Hw Hr (Hst j' Hj')) as [P3 P4].
  rewrite (dloss1_multiple l n p X y w j j' b Hn HX) in P3, P4. set (g := dloss1 n p l X y w j) in *.
  destruct (Rtotal_order (w j) 0) as [A|[A|A]], (Rtotal_order (w j') 0) as [B|[B|B]]; try (rewrite A; lra); try (rewrite B; lra); try (apply Rlt_le, Rmult_lt_0_compat; assumption); try (rewrite <- Rmult_opp_opp; apply Rlt_le, Rmult_lt_0_compat; lra); exfalso.
  - specialize (P2 A). specialize (P3 B). assert (0 <= b * g) by (apply Rmult_le_pos; lra). lra.
  - specialize (P1 A). specialize (P4 B). assert (0 <= b * - g) by (apply Rmult_le_pos; lra). lra.
Qed.
Lemma dominated a : 0 <= a -> stationary t (loss1 l n y) p X (pen1 (LassoPen a)) w -> Rabs b * (a + t) < a - t -> w j' = 0.
Proof.
  intros Ha Hst Hb. rewrite (stationary_iff n p Hn) in Hst by auto. pose proof (Hst j Hj) as P. pose proof (Hst j' Hj') as P'. cbn [dist1] in P, P'.
  apply score_lasso in P; try lra. apply score_lasso in P'; try lra. destruct P as (P & _). destruct P' as (_ & P1 & P2). rewrite (dloss1_multiple l n p X y w j j' b Hn HX) in P1, P2. set (g := dloss1 n p l X y w j) in *.
  assert (B : Rabs (b * g) <= Rabs b * (a + t)) by (rewrite Rabs_mult; apply Rmult_le_compat_l; [apply Rabs_pos|auto]).
  destruct (Rtotal_order (w j') 0) as [A|[A|A]]; auto; exfalso; set (M := Rabs b * (a + t)) in *.
  - specialize (P2 A). pose proof (Rle_abs (- (b * g) + a)). pose proof (Rle_abs (b * g)). lra.
  - specialize (P1 A). pose proof (Rle_abs (- (- (b * g) - a))) as U. rewrite Rabs_Ropp in U. pose proof (Rle_abs (- (b * g))) as V. rewrite Rabs_Ropp in V. lra.
Qed.
(** the coefficients of duplicates added up *)
Definition merged (i : nat) : R := if Nat.eqb i j then w j + w j' else if Nat.eqb i j' then 0 else w i.
Lemma merged_lin : j <> j' -> b = 1 -> forall i, (i < n)%nat -> lin p X merged i = lin p X w i.
Proof.
  intros N -> i Hi. unfold lin. assert (E : Sum p (fun q => X i q * merged q - X i q * w q) = 0); [|rewrite Sum_minus in E; lra].
  rewrite (Sum_ext p _ (fun q => (if Nat.eqb q j then X i j * w j' else 0) + (if Nat.eqb q j' then - (X i j * w j') else 0))).
  - rewrite Sum_plus, (Sum_single p _ j), (Sum_single p _ j'); auto; try (intros q _ Nq; destruct (Nat.eqb_spec q j), (Nat.eqb_spec q j'); auto; contradiction). 
    rewrite !Nat.eqb_refl. ring.
  - intros q Hq. unfold merged. destruct (Nat.eqb_spec q j) as [->|]; [destruct (Nat.eqb_spec j j'); [contradiction|ring]|]. destruct (Nat.eqb_spec q j') as [->|]; [|ring]. rewrite HX by auto. ring.
Qed.
Lemma merged_stationary a : j <> j' -> b = 1 -> 0 <= a -> t < a -> stationary t (loss1 l n y) p X (pen1 (LassoPen a)) w -> stationary t (loss1 l n y) p X (pen1 (LassoPen a)) merged.
Proof.
  intros N Hb Ha Hta Hst. pose proof (same_sign (LassoPen a) a eq_refl Ha Hst ltac:(lra) Hta) as SS. pose proof (merged_lin N Hb) as EL.
  rewrite (stationary_iff n p Hn) in Hst |- * by auto. cbn [dist1] in *. intros q Hq.
  assert (EG : dloss1 n p l X y merged q = dloss1 n p l X y w q) by (rewrite !dloss1_slope by auto; f_equal; apply Sum_ext; intros i Hi; rewrite EL; auto). rewrite EG.
  pose proof (Hst j Hj) as P. pose proof (Hst j' Hj') as P'. apply score_lasso in P; try lra. apply score_lasso in P'; try lra. destruct P as (P0 & P1 & P2). destruct P' as (P0' & P1' & P2').
  assert (EJ : dloss1 n p l X y w j' = dloss1 n p l X y w j) by (rewrite (dloss1_multiple l n p X y w j j' b Hn HX), Hb; ring). rewrite EJ in *. set (g := dloss1 n p l X y w j) in *.
  unfold merged. destruct (Nat.eqb_spec q j) as [->|]; [|destruct (Nat.eqb_spec q j') as [->|]].
  - fold g. apply (proj2 (score_lasso a _ g t Ha (Rlt_le _ _ Ht))). split; [auto|]. split; intros Hs.
    + destruct (Rlt_dec 0 (w j)); auto. apply P1'. nra.
    + destruct (Rlt_dec (w j) 0); auto. apply P2'. nra.
  - rewrite EJ. apply (proj2 (score_lasso a _ g t Ha (Rlt_le _ _ Ht))). repeat split; auto; intros; lra.
  - apply Hst; auto.
Qed.
End Stat.
(** *** fits *)
Section Fits.
Context (srt : list xr -> list nat) (VS : valid_sort xops srt) (n p : nat) (Hn : (1 <= n)%nat).
Variables (X : rmat) (y : nat -> R) (l : single_loss) (k : single_pen) (c : R) (s : solver xr) (fit : nat -> res (result (list xr) (estimator_error xr))) (t : R) (j j' : nat) (b : R).
Hypotheses (HF : single_fit srt n p X y l k s fit) (Hy : targets_ok l n y) (Hw : l1_weight k c) (HA : accepted fit) (Et : s_tolerance s = Fin t) (Ht : 0 < t)
  (Hq : (1 <= s_ws_start_size s)%nat /\ (1 <= s_max_epochs s)%nat /\ calm_schedule (s_use_acceleration s) (s_K s) (s_max_epochs s) /\
     accel_safe (s_use_acceleration s) (s_K s) (Nat.min (s_ws_start_size s) p) (s_max_epochs s))
  (Hj : (j < p)%nat) (Hj' : (j' < p)%nat) (HX : forall i, (i < n)%nat -> X i j' = b * X i j).
Lemma c106_multiples : exists N w, (forall m, (N <= m)%nat -> fit m = Ret (Ok (xv p w))) /\
  (0 <= b -> t < c -> 0 <= w j * w j') /\ (k = LassoPen c -> Rabs b * (c + t) < c - t -> w j' = 0).
Proof.
  destruct (one_fit n p Hn X y l k srt VS c s fit t Hy Hw HF HA Et Ht Hq) as (N & w & Hall & Hst & Hr & Hc). exists N, w. split; auto. split.
  - intros Hb Htc. apply (same_sign l n p Hn X y j j' Hj Hj' b t w HX k c); auto.
  - intros Ek Hb. rewrite Ek in Hst, Hr. apply (dominated l n p Hn X y j j' Hj Hj' b t w HX Ht c); auto.
Qed.
End Fits.
(** one of two equal columns left out *)
Section Merge.
Context (srt srt' : list xr -> list nat) (VS : valid_sort xops srt) (VS' : valid_sort xops srt') (n p : nat) (Hn : (1 <= n)%nat).
Variables (kept : list nat) (ND : NoDup kept) (j j' : nat) (Hj : (j < p)%nat) (Hj' : (j' < p)%nat) (Njj : j <> j') (HK : forall q, In q kept <-> (q < p)%nat /\ q <> j').
Variables (X : rmat) (y : nat -> R) (l : single_loss) (a : R) (s s' : solver xr) (fit fit' : nat -> res (result (list xr) (estimator_error xr))) (t t' : R).
Let p' := length kept.
Let X' : rmat := fun i j => X i (nth j kept 0%nat).
Hypotheses (HF : single_fit srt n p X y l (LassoPen a) s fit) (HF' : single_fit srt' n p' X' y l (LassoPen a) s' fit') (Hy : targets_ok l n y) (HA : accepted fit) (HA' : accepted fit')
  (Et : s_tolerance s = Fin t) (Et' : s_tolerance s' = Fin t') (Ht : 0 < t) (Ht' : 0 < t')
  (Hq : forall q d, In (q, d) [(s, p); (s', p')] -> (1 <= s_ws_start_size q)%nat /\ (1 <= s_max_epochs q)%nat /\ calm_schedule (s_use_acceleration q) (s_K q) (s_max_epochs q) /\
     accel_safe (s_use_acceleration q) (s_K q) (Nat.min (s_ws_start_size q) d) (s_max_epochs q))
  (HX : forall i, (i < n)%nat -> X i j' = X i j) (Hta : t < a).
Lemma c106_duplicate : exists N w v, (forall m, (N <= m)%nat -> fit m = Ret (Ok (xv p w)) /\ fit' m = Ret (Ok (xv p' v))) /\
  0 <= w j * w j' /\
  let u q := if Nat.eqb q j then w j + w j' else w q in let D := Sum p' (fun q => Rabs (u (nth q kept 0%nat) - v q)) in
  (objective (loss1 l n y) p X (pen1 (LassoPen a)) w <= objective (loss1 l n y) p' X' (pen1 (LassoPen a)) v + t * D /\
   objective (loss1 l n y) p' X' (pen1 (LassoPen a)) v <= objective (loss1 l n y) p X (pen1 (LassoPen a)) w + t' * D) /\
  (l = Squared -> Sum n (fun i => (lin p X w i - lin p' X' v i) ^ 2) / INR n <= (t + t') * D).
Proof.
  destruct (one_fit n p Hn X y l (LassoPen a) srt VS a s fit t Hy eq_refl HF HA Et Ht (Hq s p (or_introl eq_refl))) as (N & w & Hall & Hst & Hr & Hc).
  destruct (one_fit n p' Hn X' y l (LassoPen a) srt' VS' a s' fit' t' Hy eq_refl HF' HA' Et' Ht' (Hq s' p' (or_intror (or_introl eq_refl)))) as (N' & v & Hall' & Hst' & _ & _).
  assert (HX1 : forall i, (i < n)%nat -> X i j' = 1 * X i j) by (intros; rewrite HX by auto; ring).
  exists (Nat.max N N'), w, v. split; [intros m Hm; split; [apply Hall|apply Hall']; lia|].
  pose proof (same_sign l n p Hn X y j j' Hj Hj' 1 t w HX1 (LassoPen a) a eq_refl Hr Hst ltac:(lra) Hta) as SS. split; auto. intros u D.
  pose proof (merged_stationary l n p Hn X y j j' Hj Hj' 1 t w HX1 Ht a Njj eq_refl Hr Hta Hst) as Hm. pose proof (merged_lin n p X j j' Hj Hj' 1 w HX1 Njj eq_refl) as EL.
  assert (LT : forall q, In q kept -> (q < p)%nat) by (intros q H; apply HK; auto).
  destruct (dropped_core n p Hn kept ND LT X y l (LassoPen a) a t t' (merged j j' w) v Hr Hc eq_refl ltac:(lra) Hm Hst') as ((A1 & A2) & _ & A3).
  { intros q Hqp Hni. unfold merged. assert (q = j') as -> by (destruct (Nat.eq_dec q j'); auto; exfalso; apply Hni, HK; auto). rewrite Nat.eqb_refl. destruct (Nat.eqb_spec j' j); [congruence|auto]. }
  fold p' X' in A1, A2, A3. assert (ED : Sum p' (fun q => Rabs (merged j j' w (nth q kept 0%nat) - v q)) = D).
  { apply Sum_ext. intros q Hqp. f_equal. f_equal. unfold merged, u. destruct (Nat.eqb_spec (nth q kept 0%nat) j); auto. destruct (Nat.eqb_spec (nth q kept 0%nat) j') as [E|]; auto.
    exfalso. assert (I0 : In (nth q kept 0%nat) kept) by (apply nth_In; auto). apply HK in I0. tauto. }
  rewrite ED in A1, A2, A3.
  assert (EO : objective (loss1 l n y) p X (pen1 (LassoPen a)) (merged j j' w) = objective (loss1 l n y) p X (pen1 (LassoPen a)) w).
  { unfold objective. f_equal; [apply loss1_ext; auto|]. cbn [pen1]. unfold abs_pen.
    assert (E : Sum p (fun q => a * Rabs (merged j j' w q) - a * Rabs (w q)) = 0); [|rewrite Sum_minus in E; lra].
    rewrite (Sum_ext p _ (fun q => (if Nat.eqb q j then a * Rabs (w j') else 0) + (if Nat.eqb q j' then - (a * Rabs (w j')) else 0))).
    - rewrite Sum_plus, (Sum_single p _ j), (Sum_single p _ j'); auto; try (intros q _ Nq; destruct (Nat.eqb_spec q j), (Nat.eqb_spec q j'); auto; contradiction). rewrite !Nat.eqb_refl. ring.
    - intros q Hqp. unfold merged. destruct (Nat.eqb_spec q j) as [->|]; [|destruct (Nat.eqb_spec q j') as [->|]; [rewrite Rabs_R0; ring|ring]]. destruct (Nat.eqb_spec j j'); [contradiction|].
      replace (Rabs (w j + w j')) with (Rabs (w j) + Rabs (w j')); [ring|]. unfold Rabs. destruct (Rcase_abs (w j)), (Rcase_abs (w j')), (Rcase_abs (w j + w j')); nra. }
  rewrite EO in A1, A2. split; auto. intros El. specialize (A3 El). rewrite (Sum_ext n _ (fun i => (lin p X w i - lin p' X' v i) ^ 2)) in A3 by (intros; rewrite EL; auto). exact A3.
Qed.
End Merge.
