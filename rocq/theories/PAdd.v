(** How fits depend on added samples. *)
From Coq Require Import List ZArith Bool Arith Reals Lra Lia.
From Verif Require Import Ops Arr MUtils MDatasets MHyper MEstimators XR SpecPen VecR PBase RSum SpecLin SpecData PDatafit PCalc PDataProps SpecSolve PLaws PSubdiff PDescent PConv PTheory SpecOpt PFitOpt PCert SpecBudget PRateFit PMore SpecOracle POracle PSens SpecSample PSample PCols SpecAdd.
Import ListNotations.
Open Scope R_scope.

Section Two.
Variables (l : single_loss) (n m p : nat) (Hn : (1 <= n)%nat) (X X' : rmat) (y y' : nat -> R) (k : single_pen) (e e' : R) (w v : nat -> R).
Hypotheses (Hr : pen1_range k) (Hc : convex1 k) (HS : same_first n p X y X' y')
  (Hst : stationary e (loss1 l (n + m) y) p X (pen1 k) w) (Hst' : stationary e' (loss1 l n y') p X' (pen1 k) v).
Let d j := w j - v j.
Let s i := slope l (y i) (lin p X v i).
Lemma Hnm : (1 <= n + m)%nat. Proof. lia. Qed.
Lemma add_grads : Sum p (fun j => (dloss1 (n + m) p l X y w j - dloss1 n p l X' y' v j) * d j) + ridge k * Sum p (fun j => d j ^ 2) <= (e + e') * Sum p (fun j => Rabs (d j)).
Proof.
  unfold d. rewrite <- !Sum_scal, <- !Sum_plus. apply Sum_le. intros j Hj.
  destruct (Hst j Hj) as (q & (g & Dg & (_ & u & Hu & Eq)) & Hq). destruct (Hst' j Hj) as (q' & (g' & Dg' & (_ & u' & Hu' & Eq')) & Hq').
  assert (g = dloss1 (n + m) p l X y w j) as -> by (eapply uniqueness_limite; [exact Dg|apply loss1_deriv; auto; exact Hnm]).
  assert (g' = dloss1 n p l X' y' v j) as -> by (eapply uniqueness_limite; [exact Dg'|apply loss1_deriv; auto]).
  pose proof (pen_strong k _ _ Hr Hc Hu (v j)) as Q. pose proof (pen_strong k _ _ Hr Hc Hu' (w j)) as Q'.
  set (G := dloss1 (n + m) p l X y w j) in *. set (G' := dloss1 n p l X' y' v j) in *.
  assert (B : - (- G - u) * (w j - v j) <= e * Rabs (w j - v j)).
  { apply Rle_trans with (1 := Rle_abs _). rewrite Rabs_mult, Rabs_Ropp, Eq. apply Rmult_le_compat_r; [apply Rabs_pos|auto]. }
  assert (B' : (- G' - u') * (w j - v j) <= e' * Rabs (w j - v j)).
  { apply Rle_trans with (1 := Rle_abs _). rewrite Rabs_mult, Eq'. apply Rmult_le_compat_r; [apply Rabs_pos|auto]. }
  nra.
Qed.
(** the derivative in the direction [d], sample by sample *)
Lemma grad_dir N Z a : (1 <= N)%nat -> Sum p (fun j => dloss1 N p l Z a v j * d j) = Sum N (fun i => slope l (a i) (lin p Z v i) * lin p Z d i) / INR N.
Proof.
  intros HN. pose proof (INR_npos N HN). rewrite <- Sum_div. rewrite (Sum_ext N _ (fun i => Sum p (fun j => Z i j * slope l (a i) (lin p Z v i) / INR N * d j))).
  - rewrite Sum_swap. apply Sum_ext. intros j Hj. rewrite dloss1_slope by auto. rewrite Sum_scal_r, Sum_div. reflexivity.
  - intros i Hi. unfold lin at 2. rewrite <- Sum_scal, <- Sum_div. apply Sum_ext. intros. field. lra.
Qed.
Lemma add_change : Sum p (fun j => (dloss1 (n + m) p l X y v j - dloss1 n p l X' y' v j) * d j) =
  (Sum m (fun i => s (n + i)%nat * lin p X d (n + i)%nat) - INR m / INR n * Sum n (fun i => s i * lin p X d i)) / INR (n + m).
Proof.
  pose proof (INR_npos n Hn) as HN. pose proof (INR_npos _ Hnm) as HNM. rewrite (Sum_ext p _ (fun j => dloss1 (n + m) p l X y v j * d j - dloss1 n p l X' y' v j * d j)) by (intros; ring).
  rewrite Sum_minus, !grad_dir by (auto; exact Hnm). rewrite (Sum_ext n (fun i => slope l (y' i) (lin p X' v i) * lin p X' d i) (fun i => s i * lin p X d i)).
  - change (fun i => slope l (y i) (lin p X v i) * lin p X d i) with (fun i => s i * lin p X d i). rewrite (Sum_add n m (fun i => s i * lin p X d i)).
    set (A := Sum n _). set (B := Sum m _). rewrite plus_INR in *. field. lra.
  - intros i Hi. destruct (HS i Hi) as [Ey EX]. unfold s. rewrite Ey. unfold lin. f_equal; [f_equal|]; apply Sum_ext; intros; rewrite EX; auto.
Qed.
Lemma reweighed_ge f g : (forall i, (i < n + m)%nat -> Rabs (f i) <= g i) ->
  - ((Sum m (fun i => f (n + i)%nat) - INR m / INR n * Sum n f) / INR (n + m)) <= reweighed n m g.
Proof.
  intros H. pose proof (INR_npos n Hn) as HN. pose proof (INR_npos _ Hnm) as HNM. unfold reweighed, Rdiv at 1 3. rewrite Ropp_mult_distr_l. apply Rmult_le_compat_r; [left; apply Rinv_0_lt_compat; auto|].
  assert (A : - Sum m (fun i => f (n + i)%nat) <= Sum m (fun i => g (n + i)%nat)).
  { rewrite <- Sum_opp. apply Sum_le. intros i Hi. apply Rle_trans with (2 := H (n + i)%nat ltac:(lia)). rewrite <- Rabs_Ropp. apply Rle_abs. }
  assert (B : Sum n f <= Sum n g) by (apply Sum_le; intros i Hi; apply Rle_trans with (2 := H i ltac:(lia)); apply Rle_abs).
  assert (C : 0 <= INR m / INR n) by (apply Rmult_le_pos; [apply pos_INR|left; apply Rinv_0_lt_compat; auto]).
  pose proof (Rmult_le_compat_l _ _ _ C B). lra.
Qed.
Lemma reweighed_mono f g : (forall i, (i < n + m)%nat -> f i <= g i) -> reweighed n m f <= reweighed n m g.
Proof.
  intros H. pose proof (INR_npos n Hn) as HN. pose proof (INR_npos _ Hnm) as HNM. unfold reweighed, Rdiv at 1 3. apply Rmult_le_compat_r; [left; apply Rinv_0_lt_compat; auto|].
  apply Rplus_le_compat; [apply Sum_le; intros; apply H; lia|]. apply Rmult_le_compat_l; [apply Rmult_le_pos; [apply pos_INR|left; apply Rinv_0_lt_compat; auto]|]. apply Sum_le. intros; apply H; lia.
Qed.
Lemma reweighed_scal f a : reweighed n m (fun i => f i * a) = reweighed n m f * a.
Proof. unfold reweighed. rewrite !Sum_scal_r. unfold Rdiv. ring. Qed.
Lemma reweighed_const a : reweighed n m (fun _ => a) = 2 * INR m * a / INR (n + m).
Proof.
  pose proof (INR_npos n Hn) as HN. pose proof (INR_npos _ Hnm) as HNM. unfold reweighed.
  assert (E : forall q, Sum q (fun _ => a) = INR q * a) by (induction q; [rewrite Sum_0; simpl; ring|rewrite Sum_S, IHq, S_INR; ring]). rewrite !E. field. lra.
Qed.
Lemma add_basic : Sum p (fun j => (dloss1 (n + m) p l X y w j - dloss1 (n + m) p l X y v j) * d j) + ridge k * Sum p (fun j => d j ^ 2) <=
  (e + e') * Sum p (fun j => Rabs (d j)) + reweighed n m (fun i => Rabs (s i) * Rabs (lin p X d i)).
Proof.
  pose proof add_grads as Q. pose proof add_change as E. pose proof (reweighed_ge (fun i => s i * lin p X d i) (fun i => Rabs (s i) * Rabs (lin p X d i)) ltac:(intros; cbv beta; rewrite Rabs_mult; lra)) as H.
  rewrite (Sum_ext p (fun j => (dloss1 (n + m) p l X y w j - dloss1 n p l X' y' v j) * d j) (fun j => (dloss1 (n + m) p l X y w j - dloss1 (n + m) p l X y v j) * d j + (dloss1 (n + m) p l X y v j - dloss1 n p l X' y' v j) * d j)) in Q by (intros; ring).
  rewrite Sum_plus, E in Q. lra.
Qed.
Lemma add_coefficients : 0 <= e + e' -> ridge k * sqrt (Sum p (fun j => d j ^ 2)) <= sqrt (INR p) * (e + e') + reweighed n m (fun i => length_of p X i * Rabs (s i)).
Proof.
  intros He. pose proof add_basic as Q. pose proof (mono_v l (n + m) p Hnm X y w v) as Qm. fold d in Qm. pose proof (cs_count p d) as C1.
  set (D2 := Sum p (fun j => d j ^ 2)) in *. set (D1 := Sum p (fun j => Rabs (d j))) in *.
  assert (HD : 0 <= D2) by (apply Sum_nonneg; intros; apply pow2_ge_0).
  assert (H1 : 0 <= D1) by (apply Sum_nonneg; intros; apply Rabs_pos).
  assert (K1 : D1 <= sqrt (INR p) * sqrt D2) by (rewrite <- sqrt_mult by (auto; apply pos_INR); rewrite <- (sqrt_pow2 D1) by auto; apply sqrt_le_1_alt; auto).
  pose proof (Rmult_le_compat_l _ _ _ He K1) as K2. set (B := reweighed n m (fun i => length_of p X i * Rabs (s i))).
  assert (K3 : reweighed n m (fun i => Rabs (s i) * Rabs (lin p X d i)) <= B * sqrt D2).
  { unfold B. rewrite <- reweighed_scal. apply reweighed_mono. intros i Hi. pose proof (lin_len p w v X i) as L1. fold d D2 in L1.
    pose proof (Rmult_le_compat_l _ _ _ (Rabs_pos (s i)) L1). lra. }
  assert (HB : 0 <= B).
  { replace 0 with (reweighed n m (fun _ => 0)) by (rewrite reweighed_const; unfold Rdiv; ring). apply reweighed_mono. intros. apply Rmult_le_pos; [apply sqrt_pos|apply Rabs_pos]. }
  set (sd := sqrt D2) in *. assert (Es : D2 = sd * sd) by (unfold sd; rewrite sqrt_sqrt; auto). assert (Hsd : 0 <= sd) by apply sqrt_pos.
  destruct (Req_dec sd 0) as [E0|E0].
  - rewrite E0, Rmult_0_r. pose proof (Rmult_le_pos _ _ (sqrt_pos (INR p)) He). lra.
  - apply Rmult_le_reg_r with sd; [lra|]. rewrite Es in Q. lra.
Qed.
Lemma add_logistic R0 : l = Logistic -> targets_ok l (n + m) y -> (forall i, (i < n + m)%nat -> length_of p X i <= R0) -> 0 <= e + e' ->
  ridge k * sqrt (Sum p (fun j => d j ^ 2)) <= sqrt (INR p) * (e + e') + 2 * INR m * R0 / INR (n + m).
Proof.
  intros El Hy HR He. apply Rle_trans with (1 := add_coefficients He). apply Rplus_le_compat_l. rewrite <- reweighed_const. apply reweighed_mono. intros i Hi.
  assert (S1 : Rabs (s i) <= 1). { unfold s. rewrite El. apply Rle_trans with (1 := slope_logistic _ _). rewrite El in Hy. apply Hy; auto. }
  pose proof (sqrt_pos (Sum p (fun j => X i j ^ 2))) as L0. fold (length_of p X i) in L0. specialize (HR i Hi).
  pose proof (Rmult_le_compat_l _ _ _ L0 S1). lra.
Qed.
Lemma add_predictions : l = Squared -> msp (n + m) p X d + ridge k * Sum p (fun j => d j ^ 2) <=
  (e + e') * Sum p (fun j => Rabs (d j)) + reweighed n m (fun i => Rabs (s i) * Rabs (lin p X d i)).
Proof.
  intros El. pose proof add_basic as Q. pose proof (INR_npos _ Hnm) as HN.
  replace (msp (n + m) p X d) with (Sum p (fun j => (dloss1 (n + m) p l X y w j - dloss1 (n + m) p l X y v j) * d j)); auto.
  unfold msp. rewrite <- Sum_div. rewrite (Sum_ext (n + m) _ (fun i => Sum p (fun j => lin p X d i / INR (n + m) * (X i j * d j)))) by (intros; rewrite Sum_scal; unfold lin; field; lra).
  rewrite Sum_swap. apply Sum_ext. intros j Hj. rewrite El. cbn [dloss1]. unfold gq. rewrite <- !Sum_minus, <- !Sum_div, <- Sum_minus, <- Sum_scal_r. apply Sum_ext. intros i Hi. unfold d. rewrite lin_minus. field. lra.
Qed.
End Two.
(** *** fits *)
Section Fits.
Context (srt srt' : list xr -> list nat) (VS : valid_sort xops srt) (VS' : valid_sort xops srt') (n m p : nat) (Hn : (1 <= n)%nat).
Variables (X X' : rmat) (y y' : nat -> R) (l : single_loss) (k : single_pen) (c : R) (s s' : solver xr) (fit fit' : nat -> res (result (list xr) (estimator_error xr))) (t t' : R).
Hypotheses (HF : single_fit srt (n + m) p X y l k s fit) (HF' : single_fit srt' n p X' y' l k s' fit') (Hy : targets_ok l (n + m) y) (HS : same_first n p X y X' y')
  (Hw : l1_weight k c) (HA : accepted fit) (HA' : accepted fit') (Et : s_tolerance s = Fin t) (Et' : s_tolerance s' = Fin t') (Ht : 0 < t) (Ht' : 0 < t')
  (Hq : forall q, In q [s; s'] -> (1 <= s_ws_start_size q)%nat /\ (1 <= s_max_epochs q)%nat /\ calm_schedule (s_use_acceleration q) (s_K q) (s_max_epochs q) /\
     accel_safe (s_use_acceleration q) (s_K q) (Nat.min (s_ws_start_size q) p) (s_max_epochs q)).
Lemma c105 : exists N w v, (forall b, (N <= b)%nat -> fit b = Ret (Ok (xv p w)) /\ fit' b = Ret (Ok (xv p v))) /\
  let d j := w j - v j in let r i := Rabs (slope l (y i) (lin p X v i)) in
  ridge k * sqrt (Sum p (fun j => d j ^ 2)) <= sqrt (INR p) * (t + t') + reweighed n m (fun i => length_of p X i * r i) /\
  (l = Logistic -> forall R0, (forall i, (i < n + m)%nat -> length_of p X i <= R0) -> ridge k * sqrt (Sum p (fun j => d j ^ 2)) <= sqrt (INR p) * (t + t') + 2 * INR m * R0 / INR (n + m)) /\
  (l = Squared -> msp (n + m) p X d + ridge k * Sum p (fun j => d j ^ 2) <= (t + t') * Sum p (fun j => Rabs (d j)) + reweighed n m (fun i => r i * Rabs (lin p X d i))).
Proof.
  assert (Hy' : targets_ok l n y') by (destruct l; [exact I|]; intros i Hi; rewrite <- (proj1 (HS i Hi)); apply Hy; lia).
  destruct (one_fit (n + m) p (Hnm n m Hn) X y l k srt VS c s fit t Hy Hw HF HA Et Ht (Hq s (or_introl eq_refl))) as (N & w & Hall & Hst & Hr & Hc).
  destruct (one_fit n p Hn X' y' l k srt' VS' c s' fit' t' Hy' Hw HF' HA' Et' Ht' (Hq s' (or_intror (or_introl eq_refl)))) as (N' & v & Hall' & Hst' & _ & _).
  exists (Nat.max N N'), w, v. split; [intros b Hb; split; [apply Hall|apply Hall']; lia|]. intros d r. split; [|split].
  - apply (add_coefficients l n m p Hn X X' y y' k t t' w v); auto. lra.
  - intros El R0 HR. apply (add_logistic l n m p Hn X X' y y' k t t' w v); auto. lra.
  - intros El. apply (add_predictions l n m p Hn X X' y y' k t t' w v); auto.
Qed.
End Fits.
