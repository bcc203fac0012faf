(** The Lasso selects only relevant features when the others are incoherent with them. *)
From Coq Require Import List ZArith Bool Arith Reals Lra Lia.
From Verif Require Import Ops Arr MUtils MDatasets MHyper MEstimators XR SpecPen VecR PBase RSum SpecLin SpecData PDatafit PCalc PDataProps SpecSolve PLaws PSubdiff PDescent PConv PTheory PSubdiffBlock SpecOpt PFitOpt PCert SpecBudget PRateFit PMore SpecOracle POracle PSens SpecSample PSample PCols PDup SpecIncoh.
Import ListNotations.
Open Scope R_scope.

Section Stat.
Variables (n p : nat) (Hn : (1 <= n)%nat) (X : rmat) (y beta e : nat -> R) (S : nat -> bool) (q : rmat) (rho lam a t : R) (w : nat -> R).
Hypotheses (HG : generated n p X y beta e) (HS : support_in p S beta) (HI : incoherent n p X S q rho) (HL : noise_outside n p X S q e lam)
  (Ha : 0 <= a) (Ht : 0 < t) (Hst : stationary t (loss1 Squared n y) p X (pen1 (LassoPen a)) w).
Let z := leftover p X S q.
Let o j := if S j then 0 else w j.
Let qS j k := if S k then q j k else 0.
Let r i := y i - lin p X w i.
Let c j := Sum n (fun i => X i j * r i) / INR n.
Lemma col_split i j : X i j = Sum p (fun k => qS j k * X i k) + z i j.
Proof. unfold z, leftover, sum_in, qS. rewrite (Sum_ext p (fun k => (if S k then q j k else 0) * X i k) (fun k => if S k then q j k * X i k else 0)); [ring|]. intros k _. destruct (S k); ring. Qed.
Lemma z_orth j k : (j < p)%nat -> S j = false -> (k < p)%nat -> Sum n (fun i => z i j * X i k) = if S k then 0 else Sum n (fun i => z i j * z i k).
Proof.
  intros Hj Sj Hk. destruct HI as [_ H]. destruct (H j Hj Sj) as [_ Ho]. destruct (S k) eqn:Ek.
  - rewrite <- (Ho k Hk Ek). apply Sum_ext. intros. unfold z. ring.
  - rewrite (Sum_ext n _ (fun i => Sum p (fun k' => qS k k' * (X i k' * z i j)) + z i j * z i k)).
    + rewrite Sum_plus, Sum_swap. rewrite (Sum_zero p); [ring|]. intros k' Hk'. rewrite Sum_scal. unfold qS. destruct (S k') eqn:E'; [|ring]. unfold z. rewrite (Ho k' Hk' E'). ring.
    + intros i _. rewrite (col_split i k) at 1. rewrite Rmult_plus_distr_l. f_equal. rewrite <- Sum_scal. apply Sum_ext. intros. ring.
Qed.
Lemma z_resid j : (j < p)%nat -> S j = false -> Sum n (fun i => z i j * r i) = Sum n (fun i => z i j * e i) - Sum n (fun i => z i j * Sum p (fun k => o k * z i k)).
Proof.
  intros Hj Sj. rewrite (Sum_ext n (fun i => z i j * r i) (fun i => z i j * e i + Sum p (fun k => (beta k - w k) * (z i j * X i k)))).
  - rewrite Sum_plus. match goal with |- ?A + ?B = _ - ?C => cut (B = - C); [intros ->; ring|] end. rewrite Sum_swap. rewrite <- Sum_opp. rewrite (Sum_ext n (fun i => - (z i j * Sum p (fun k => o k * z i k))) (fun i => Sum p (fun k => - o k * (z i j * z i k)))).
    + rewrite (Sum_swap n p). apply Sum_ext. intros k Hk. rewrite !Sum_scal, z_orth by auto. unfold o. destruct (S k) eqn:Ek; [ring|]. rewrite (HS k Hk Ek). ring.
    + intros i _. rewrite <- Sum_scal, <- Sum_opp. apply Sum_ext. intros. ring.
  - intros i Hi. unfold r. rewrite (HG i Hi). unfold lin. replace (Sum p (fun j0 => X i j0 * beta j0) + e i - Sum p (fun j0 => X i j0 * w j0)) with (e i + Sum p (fun k => X i k * (beta k - w k))) by (rewrite (Sum_ext p _ (fun k => X i k * beta k - X i k * w k)), Sum_minus by (intros; ring); ring).
    rewrite Rmult_plus_distr_l. f_equal. rewrite <- Sum_scal. apply Sum_ext. intros. ring.
Qed.
Lemma corr_split j : c j = Sum p (fun k => qS j k * c k) + Sum n (fun i => z i j * r i) / INR n.
Proof.
  unfold c. rewrite (Sum_ext n (fun i => X i j * r i) (fun i => Sum p (fun k => qS j k * (X i k * r i)) + z i j * r i)).
  - rewrite Sum_plus, Sum_swap. rewrite (Sum_ext p (fun k => qS j k * (Sum n (fun i => X i k * r i) / INR n)) (fun k => Sum n (fun i => qS j k * (X i k * r i)) / INR n)) by (intros; rewrite Sum_scal; unfold Rdiv; ring).
    rewrite Sum_div. unfold Rdiv. ring.
  - intros i _. rewrite (col_split i j) at 1. rewrite Rmult_plus_distr_r. f_equal. rewrite <- Sum_scal_r. apply Sum_ext. intros. ring.
Qed.
Lemma corr_grad j : dloss1 n p Squared X y w j = - c j.
Proof. rewrite dloss1_slope by auto. unfold c, r. cbn [slope]. unfold Rdiv. rewrite Ropp_mult_distr_l, <- Sum_opp. f_equal. apply Sum_ext. intros. ring. Qed.
Lemma corr_bound j : (j < p)%nat -> Rabs (c j) <= a + t /\ (a - t) * Rabs (w j) <= w j * c j.
Proof.
  intros Hj. rewrite (stationary_iff n p Hn) in Hst by auto. pose proof (Hst j Hj) as P. cbn [dist1] in P. apply score_lasso in P; try lra. rewrite corr_grad in P. destruct P as (P0 & P1 & P2). rewrite Rabs_Ropp in P0. split; auto.
  destruct (Rtotal_order (w j) 0) as [A|[A|A]].
  - specialize (P2 A). pose proof (Rle_abs (- - c j + a)). rewrite (Rabs_left (w j)) by auto. nra.
  - rewrite A, Rabs_R0. lra.
  - specialize (P1 A). pose proof (Rle_abs (- (- - c j - a))) as U. rewrite Rabs_Ropp in U. rewrite (Rabs_pos_eq (w j)) by lra. nra.
Qed.
Lemma none_outside : rho * (a + t) + lam < a - t -> forall j, (j < p)%nat -> S j = false -> w j = 0.
Proof.
  intros HC. pose proof (INR_npos n Hn) as HN. destruct HI as [Hrho HI']. destruct HL as [Hlam HL'].
  assert (LO : (a - t) * Sum p (fun j => Rabs (o j)) <= Sum p (fun j => o j * c j)).
  { rewrite <- Sum_scal. apply Sum_le. intros j Hj. unfold o. destruct (S j); [rewrite Rabs_R0; lra|]. apply corr_bound; auto. }
  assert (UP : Sum p (fun j => o j * c j) <= (rho * (a + t) + lam) * Sum p (fun j => Rabs (o j))).
  { apply Rle_trans with (Sum p (fun j => (rho * (a + t) + lam) * Rabs (o j) - o j * Sum n (fun i => z i j * Sum p (fun k => o k * z i k)) / INR n)).
    - apply Sum_le. intros j Hj. unfold o at 1 2 3. destruct (S j) eqn:Ej; [rewrite Rabs_R0; unfold Rdiv; lra|]. rewrite (corr_split j), z_resid by auto.
      set (Q := Sum p (fun k => qS j k * c k)). set (E := Sum n (fun i => z i j * e i)). set (U := Sum n _).
      assert (BQ : Rabs Q <= rho * (a + t)).
      { unfold Q. apply Rle_trans with (1 := Rabs_Sum _ _). apply Rle_trans with (sum_in p S (fun k => Rabs (q j k)) * (a + t)); [|apply Rmult_le_compat_r; [lra|apply HI'; auto]].
        unfold sum_in. rewrite <- Sum_scal_r. apply Sum_le. intros k Hk. rewrite Rabs_mult. unfold qS. destruct (S k); [|rewrite Rabs_R0; lra]. apply Rmult_le_compat_l; [apply Rabs_pos|apply corr_bound; auto]. }
      pose proof (HL' j Hj Ej) as BE. fold z in BE. fold E in BE. pose proof (Rabs_pos (w j)) as W0.
      assert (w j * Q <= Rabs (w j) * (rho * (a + t))) by (apply Rle_trans with (1 := Rle_abs _); rewrite Rabs_mult; apply Rmult_le_compat_l; auto).
      assert (w j * (E / INR n) <= Rabs (w j) * lam) by (apply Rle_trans with (1 := Rle_abs _); rewrite Rabs_mult; apply Rmult_le_compat_l; auto).
      replace (w j * (Q + (E - U) / INR n)) with (w j * Q + w j * (E / INR n) - w j * U / INR n) by (field; lra). lra.
    - rewrite Sum_minus, Sum_scal. assert (SQ : Sum p (fun j => o j * Sum n (fun i => z i j * Sum p (fun k => o k * z i k)) / INR n) = Sum n (fun i => Sum p (fun k => o k * z i k) ^ 2) / INR n).
      { rewrite Sum_div. f_equal. rewrite (Sum_ext n (fun i => Sum p (fun k => o k * z i k) ^ 2) (fun i => Sum p (fun j => o j * (z i j * Sum p (fun k => o k * z i k))))).
        - rewrite Sum_swap. apply Sum_ext. intros j _. rewrite Sum_scal. reflexivity.
        - intros i _. set (u := Sum p (fun k => o k * z i k)). replace (u ^ 2) with (u * u) by ring. unfold u at 1. rewrite <- Sum_scal_r. apply Sum_ext. intros. ring. }
      rewrite SQ. assert (0 <= Sum n (fun i => Sum p (fun k => o k * z i k) ^ 2) / INR n) by (apply Rmult_le_pos; [apply Sum_nonneg; intros; apply pow2_ge_0|left; apply Rinv_0_lt_compat; auto]). lra. }
  assert (Z : Sum p (fun j => Rabs (o j)) = 0).
  { assert (0 <= Sum p (fun j => Rabs (o j))) by (apply Sum_nonneg; intros; apply Rabs_pos). nra. }
  intros j Hj Sj. assert (B : Rabs (o j) <= 0) by (rewrite <- Z; apply (Sum_ge_term p (fun j => Rabs (o j))); auto; intros; apply Rabs_pos).
  unfold o in B. rewrite Sj in B. destruct (Req_dec (w j) 0) as [|N]; auto. pose proof (Rabs_pos_lt _ N). lra.
Qed.
End Stat.

Section StatT.
Variables (n p T : nat) (Hn : (1 <= n)%nat) (X Y Be E : rmat) (S : nat -> bool) (q : rmat) (rho lam a eps : R) (W : rmat).
Hypotheses (HG : generated_mt n p T X Y Be E) (HS : support_in_mt p T S Be) (HI : incoherent n p X S q rho) (HL : noise_outside_mt n p T X S q E lam)
  (Ha : 0 < a) (Ht : 0 < eps) (Hst : stationary_mt eps (quad_loss_mt n T Y) p T X (penT (MtLassoPen a)) W).
Let z := leftover p X S q.
Let o j t := if S j then 0 else W j t.
Let qS j k := if S k then q j k else 0.
Let c j t := Sum n (fun i => X i j * (Y i t - lin_mt p X W i t)) / INR n.
Local Notation N f := (norm2 (tab T f)).
Lemma dot_le f g : Rabs (Sum T (fun t => f t * g t)) <= N f * N g.
Proof.
  apply Rabs_le. split.
  - pose proof (cauchy_schwarz (vscale (-1) (tab T f)) (tab T g)) as C. rewrite dotp_scale_l, norm2_scale, dotp_tab in C. replace (Rabs (-1)) with 1 in C by (rewrite Rabs_left; lra). lra.
  - rewrite <- dotp_tab. apply cauchy_schwarz.
Qed.
Lemma row_bound j : (j < p)%nat -> N (c j) <= a + eps /\ (a - eps) * N (W j) <= Sum T (fun t => W j t * c j t).
Proof.
  intros Hj. pose proof (proj1 (mt_lasso_stationary_iff n p Hn T a X Y W eps Ha) Hst j Hj) as P.
  assert (Eg : vneg (tab T (gq n X Y (lin_mt p X W) j)) = tab T (c j)).
  { unfold vneg, tab. rewrite map_map. apply map_ext. intros t. unfold gq, c. pose proof (INR_npos n Hn). rewrite (Sum_ext n (fun i => X i j * (Y i t - lin_mt p X W i t)) (fun i => X i j * Y i t - X i j * lin_mt p X W i t)), Sum_minus by (intros; ring). field. lra. }
  unfold r_l21_score in P. rewrite Eg in P. rewrite <- (norm2_vneg (tab T (gq n X Y (lin_mt p X W) j))), Eg in P.
  pose proof (norm2_pos (tab T (W j))) as W0. destruct (Reqb_case (norm2 (tab T (W j))) 0) as [Z|Z].
  - pose proof (Rmax_r 0 (N (c j) - a)). split; [lra|]. rewrite Z, Rmult_0_r. pose proof (dot_le (W j) (c j)) as D. rewrite Z, Rmult_0_l in D. pose proof (Rabs_pos (Sum T (fun t => W j t * c j t))). apply Req_le. symmetry. destruct (Req_dec (Sum T (fun t => W j t * c j t)) 0) as [|K]; auto. pose proof (Rabs_pos_lt _ K). lra.
  - set (h := a / N (W j)) in *. assert (Hh : h * N (W j) = a) by (unfold h; field; auto). assert (0 < h) by (unfold h; apply Rdiv_lt_0_compat; lra).
    assert (EV : vscale h (tab T (W j)) = tab T (fun t => h * W j t)) by (unfold vscale, tab; rewrite map_map; reflexivity).
    split.
    + apply Rle_trans with (1 := norm2_triang (tab T (c j)) (vscale h (tab T (W j))) ltac:(rewrite EV; unfold tab; rewrite !map_length; reflexivity)). rewrite norm2_scale, Rabs_pos_eq by lra. lra.
    + rewrite EV, vminus_tab in P. pose proof (dot_le (W j) (fun t => c j t - h * W j t)) as D. cbv beta in D.
      rewrite (Sum_ext T (fun t => W j t * (c j t - h * W j t)) (fun t => W j t * c j t - h * W j t ^ 2)), Sum_minus, Sum_scal, <- norm2_tab in D by (intros; ring).
      assert (D2 : N (W j) * N (fun t => c j t - h * W j t) <= N (W j) * eps) by (apply Rmult_le_compat_l; auto).
      pose proof (Rle_abs (- (Sum T (fun t => W j t * c j t) - h * N (W j) ^ 2))) as D3. rewrite Rabs_Ropp in D3. replace (h * N (W j) ^ 2) with (a * N (W j)) in * by (rewrite <- Hh; ring). lra.
Qed.
Lemma none_outside_mt : rho * (a + eps) + lam < a - eps -> forall j t, (j < p)%nat -> (t < T)%nat -> S j = false -> W j t = 0.
Proof.
  intros HC. pose proof (INR_npos n Hn) as HN. destruct (HI) as [Hrho HI']. destruct HL as [Hlam HL'].
  pose (U j t := Sum n (fun i => z i j * Sum p (fun k => o k t * z i k))).
  assert (NZ : N (fun _ => 0) = 0) by (pose proof (norm2_tab T (fun _ => 0)) as Q; rewrite Sum_zero in Q by (intros; ring); nra).
  assert (LO : (a - eps) * Sum p (fun j => N (o j)) <= Sum p (fun j => Sum T (fun t => o j t * c j t))).
  { rewrite <- Sum_scal. apply Sum_le. intros j Hj. unfold o. destruct (S j).
    - rewrite NZ, Sum_zero by (intros; ring). lra.
    - apply row_bound; auto. }
  assert (UP : Sum p (fun j => Sum T (fun t => o j t * c j t)) <= (rho * (a + eps) + lam) * Sum p (fun j => N (o j))).
  { apply Rle_trans with (Sum p (fun j => (rho * (a + eps) + lam) * N (o j) - Sum T (fun t => o j t * U j t) / INR n)).
    - apply Sum_le. intros j Hj. unfold o at 1 2 3. destruct (S j) eqn:Ej; [rewrite NZ, !Sum_zero by (intros; ring); unfold Rdiv; lra|].
      assert (CE : forall t, (t < T)%nat -> c j t = Sum p (fun k => qS j k * c k t) + (Sum n (fun i => z i j * E i t) / INR n - U j t / INR n)).
      { intros t Hlt. pose proof (corr_split n p X (fun i => Y i t) S q (fun k => W k t) j) as CS. cbv beta in CS. pose proof (z_resid n p X (fun i => Y i t) (fun k => Be k t) (fun i => E i t) S q rho (fun k => W k t)) as ZR.
        cbv beta in ZR. rewrite ZR in CS; auto.
        - unfold Rdiv. rewrite <- Rmult_minus_distr_r. exact CS.
        - intros i Hi. apply (HG i t Hi Hlt).
        - intros k Hk Ek. apply HS; auto. }
      rewrite (Sum_ext T (fun t => W j t * c j t) (fun t => (W j t * Sum p (fun k => qS j k * c k t) + W j t * (Sum n (fun i => z i j * E i t) / INR n)) - W j t * U j t / INR n)) by (intros t Hlt; rewrite (CE t Hlt); unfold Rdiv; ring).
      rewrite Sum_minus, Sum_plus, (Sum_div T (INR n)). pose proof (norm2_pos (tab T (W j))) as W0.
      assert (B1 : Sum T (fun t => W j t * Sum p (fun k => qS j k * c k t)) <= rho * (a + eps) * N (W j)).
      { rewrite (Sum_ext T _ (fun t => Sum p (fun k => qS j k * (W j t * c k t)))) by (intros; rewrite <- Sum_scal; apply Sum_ext; intros; ring). rewrite Sum_swap.
        apply Rle_trans with (sum_in p S (fun k => Rabs (q j k)) * ((a + eps) * N (W j))); [|rewrite Rmult_assoc; apply Rmult_le_compat_r; [apply Rmult_le_pos; lra|apply HI'; auto]].
        unfold sum_in. rewrite <- Sum_scal_r. apply Sum_le. intros k Hk. rewrite Sum_scal. unfold qS. destruct (S k); [|lra]. apply Rle_trans with (1 := Rle_abs _). rewrite Rabs_mult. apply Rmult_le_compat_l; [apply Rabs_pos|].
        apply Rle_trans with (1 := dot_le _ _). rewrite Rmult_comm. apply Rmult_le_compat_r; auto. apply row_bound; auto. }
      assert (B2 : Sum T (fun t => W j t * (Sum n (fun i => z i j * E i t) / INR n)) <= lam * N (W j)).
      { apply Rle_trans with (1 := Rle_abs _). apply Rle_trans with (1 := dot_le _ _). rewrite Rmult_comm. apply Rmult_le_compat_r; auto. apply (HL' j Hj Ej). }
      change (tab T (fun t => W j t)) with (tab T (W j)). lra.
    - rewrite Sum_minus, Sum_scal. assert (SQ : Sum p (fun j => Sum T (fun t => o j t * U j t) / INR n) = Sum T (fun t => Sum n (fun i => Sum p (fun k => o k t * z i k) ^ 2)) / INR n).
      { rewrite Sum_div. f_equal. rewrite Sum_swap. apply Sum_ext. intros t _. unfold U. rewrite (Sum_ext n (fun i => Sum p (fun k => o k t * z i k) ^ 2) (fun i => Sum p (fun j => o j t * (z i j * Sum p (fun k => o k t * z i k))))).
        - rewrite (Sum_swap n p). apply Sum_ext. intros j _. rewrite Sum_scal. reflexivity.
        - intros i _. set (u := Sum p (fun k => o k t * z i k)). replace (u ^ 2) with (u * u) by ring. unfold u at 1. rewrite <- Sum_scal_r. apply Sum_ext. intros. ring. }
      rewrite SQ. assert (0 <= Sum T (fun t => Sum n (fun i => Sum p (fun k => o k t * z i k) ^ 2)) / INR n) by (apply Rmult_le_pos; [apply Sum_nonneg; intros; apply Sum_nonneg; intros; apply pow2_ge_0|left; apply Rinv_0_lt_compat; auto]). lra. }
  assert (Z : Sum p (fun j => N (o j)) = 0).
  { assert (0 <= Sum p (fun j => N (o j))) by (apply Sum_nonneg; intros; apply norm2_pos). nra. }
  intros j t Hj Hlt Sj. assert (B : N (o j) <= 0) by (rewrite <- Z; apply (Sum_ge_term p (fun j => N (o j))); auto; intros; apply norm2_pos).
  unfold o in B. rewrite Sj in B. pose proof (norm2_pos (tab T (W j))). assert (Q : N (W j) ^ 2 = 0) by (assert (N (W j) = 0) by (apply Rle_antisym; auto); rewrite H0; ring).
  rewrite norm2_tab in Q. pose proof (Sum_ge_term T (fun t => W j t ^ 2) t ltac:(intros; apply pow2_ge_0) Hlt) as V. cbv beta in V. rewrite Q in V. pose proof (pow2_ge_0 (W j t)). nra.
Qed.
End StatT.

(** *** results of fits *)
Section Fits.
Context (srt : list xr -> list nat) (VS : valid_sort xops srt) (n p : nat) (Hn : (1 <= n)%nat).
Lemma c107_single X y beta e a s fit tol S q rho lam : single_fit srt n p X y Squared (LassoPen a) s fit -> accepted fit -> s_tolerance s = Fin tol -> 0 < tol ->
  (1 <= s_ws_start_size s)%nat -> (1 <= s_max_epochs s)%nat ->
  calm_schedule (s_use_acceleration s) (s_K s) (s_max_epochs s) -> accel_safe (s_use_acceleration s) (s_K s) (Nat.min (s_ws_start_size s) p) (s_max_epochs s) ->
  generated n p X y beta e -> support_in p S beta -> incoherent n p X S q rho -> noise_outside n p X S q e lam -> rho * (a + tol) + lam < a - tol ->
  settles p (fun w => (forall j, (j < p)%nat -> S j = false -> w j = 0) /\
    forall kappa lam', noise_level n p X e lam' -> lam' + tol <= a / 2 -> 0 < kappa -> restricted_eigenvalue n p X S kappa ->
      (forall j, (j < p)%nat -> S j = true -> 6 * a * size_of p S < kappa * Rabs (beta j)) ->
      forall j, (j < p)%nat -> (w j = 0 <-> beta j = 0) /\ (beta j <> 0 -> 0 < w j * beta j)) fit.
Proof.
  intros HF Ha Et Ht H1 H2 H3 H4 HG HS HI HL HC.
  destruct (c27_single srt VS n p Hn X y _ _ s fit HF I I tol Ha Et Ht H1 H2 H3 H4) as (N & w & Hst & Hall). exists N, w. split; auto.
  destruct (inv1 srt VS n p Hn X y _ _ s fit HF I I N _ (Hall N (le_n N))) as (Hr & _). cbn [pen1_range] in Hr.
  pose proof (none_outside n p Hn X y beta e S q rho lam a tol w HG HS HI HL Hr Ht Hst HC) as NO. split; auto.
  intros kappa lam' HL' Hle Hk HRE Hb j Hj.
  destruct (fast_rate n p Hn X y beta e a tol lam' w Hr HG HL' Hst S kappa HS ltac:(pose proof (proj1 HL'); lra) Hle Hk HRE) as (_ & _ & F).
  destruct (S j) eqn:Ej.
  - pose proof (F j Hj (Hb j Hj Ej)) as Q. split; [|auto]. split; intros Z; rewrite Z in Q; lra.
  - pose proof (NO j Hj Ej) as W0. pose proof (HS j Hj Ej) as B0. split; [tauto|congruence].
Qed.
Lemma c107_multi T X Y Be E a s fit tol S q rho lam : multi_fit srt n p T X Y (MtLassoPen a) s fit -> accepted fit -> s_tolerance s = Fin tol -> 0 < tol ->
  (1 <= s_ws_start_size s)%nat -> (1 <= s_max_epochs s)%nat ->
  calm_schedule (s_use_acceleration s) (s_K s) (s_max_epochs s) -> accel_safe (s_use_acceleration s) (s_K s) (Nat.min (s_ws_start_size s) p * T) (s_max_epochs s) ->
  generated_mt n p T X Y Be E -> support_in_mt p T S Be -> incoherent n p X S q rho -> noise_outside_mt n p T X S q E lam -> rho * (a + tol) + lam < a - tol ->
  settles_mt p T (fun W => (forall j t, (j < p)%nat -> (t < T)%nat -> S j = false -> W j t = 0) /\
    forall kappa lam', noise_level_mt n p T X E lam' -> lam' + tol <= a / 2 -> 0 < kappa -> restricted_eigenvalue_mt n p T X S kappa ->
      (forall j, (j < p)%nat -> S j = true -> 6 * a * size_of p S < kappa * norm2 (map (Be j) (seq 0 T))) ->
      forall j, (j < p)%nat -> (exists t, (t < T)%nat /\ W j t <> 0) <-> S j = true) fit.
Proof.
  intros HF Ha Et Ht H1 H2 H3 H4 HG HS HI HL HC.
  destruct (c27_multi srt VS n p Hn T X Y a s fit HF tol Ha Et Ht H1 H2 H3 H4) as (N & W & Hst & Hall). exists N, W. split; auto.
  pose proof (proj1 (multi_run srt VS n p Hn T X Y _ s fit HF)) as Hr. cbn [penT_range] in Hr.
  pose proof (none_outside_mt n p T Hn X Y Be E S q rho lam a tol W HG HS HI HL Hr Ht Hst HC) as NO. split; auto.
  intros kappa lam' HL' Hle Hk HRE Hb j Hj.
  destruct (c99_multi srt VS n p Hn T X Y Be E a s fit tol lam' HF Ha Et Ht H1 H2 H3 H4 HG HL') as (N' & W' & (_ & Q) & Hall').
  assert (EW : xm p T W = xm p T W') by (specialize (Hall (Nat.max N N') ltac:(lia)); specialize (Hall' (Nat.max N N') ltac:(lia)); congruence).
  assert (F : forall j, (j < p)%nat -> 6 * a * size_of p S < kappa * norm2 (map (Be j) (seq 0 T)) -> exists t, (t < T)%nat /\ W j t <> 0).
  { intros j' Hj' Hb'. destruct (Q S kappa HS Hk HRE Hle) as (_ & _ & F). destruct (F j' Hj' Hb') as (t & Hlt & Hne). exists t. split; auto. rewrite (xm_inj p T W W' EW j' t Hj' Hlt). exact Hne. }
  split; [|intros Ej; apply F; auto]. intros (t & Hlt & Hne). destruct (S j) eqn:Ej; [reflexivity|]. exfalso. apply Hne. apply NO; auto.
Qed.
End Fits.
