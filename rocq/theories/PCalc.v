(** Calculus of the three losses: derivatives, curvature bounds, convexity. *)
From Coq Require Import List ZArith Bool Arith Reals Lra Lia Psatz.
From Verif Require Import XR PBase RSum SpecLin SpecData PDatafit.
Import ListNotations.
Open Scope R_scope.

Definition sp (u : R) : R := ln (1 + exp u).
Lemma sig_pos u : 0 < sig u < 1.
Proof.
  unfold sig. pose proof (exp_pos (- u)). split.
  - apply Rdiv_lt_0_compat; lra.
  - apply (Rmult_lt_reg_r (1 + exp (- u))); [lra|]. unfold Rdiv. rewrite Rmult_assoc, Rinv_l by lra. lra.
Qed.
Lemma sig_exp u : sig u = exp u / (1 + exp u).
Proof.
  unfold sig. rewrite exp_Ropp. pose proof (exp_pos u). field. split; [lra|]. lra.
Qed.
Lemma deriv_val f x g g' : derivable_pt_lim f x g -> g = g' -> derivable_pt_lim f x g'.
Proof. intros; subst; auto. Qed.
Lemma sp_deriv u : derivable_pt_lim sp u (sig u).
Proof.
  rewrite sig_exp. pose proof (exp_pos u).
  assert (D1 : derivable_pt_lim (fun u => 1 + exp u) u (exp u)).
  { apply deriv_val with (0 + exp u); [|ring]. apply (derivable_pt_lim_plus (fun _ => 1) exp); [apply derivable_pt_lim_const|apply derivable_pt_lim_exp]. }
  replace (exp u / (1 + exp u)) with (/ (1 + exp u) * exp u) by (field; lra).
  apply (derivable_pt_lim_comp (fun u => 1 + exp u) ln); auto. apply derivable_pt_lim_ln. lra.
Qed.
Lemma sig_deriv u : derivable_pt_lim sig u (sig u * (1 - sig u)).
Proof.
  pose proof (exp_pos (- u)).
  assert (D1 : derivable_pt_lim (fun u => 1 + exp (- u)) u (- exp (- u))).
  { apply deriv_val with (0 + exp (- u) * - (1)); [|ring].
    apply (derivable_pt_lim_plus (fun _ => 1) (fun u => exp (- u))); [apply derivable_pt_lim_const|].
    apply (derivable_pt_lim_comp Ropp exp); [|apply derivable_pt_lim_exp].
    apply (derivable_pt_lim_opp (fun x => x)). apply derivable_pt_lim_id. }
  assert (D2 := derivable_pt_lim_div (fun _ => 1) (fun u => 1 + exp (- u)) u 0 (- exp (- u)) (derivable_pt_lim_const 1 u) D1).
  replace (sig u * (1 - sig u)) with ((0 * (1 + exp (- u)) - (- exp (- u)) * 1) / Rsqr (1 + exp (- u))).
  - apply D2. lra.
  - unfold sig, Rsqr. field. lra.
Qed.
Lemma sig_slope u : 0 < sig u * (1 - sig u) <= 1 / 4.
Proof. pose proof (sig_pos u). pose proof (pow2_ge_0 (sig u - 1/2)). split; [apply Rmult_lt_0_compat; lra|nra]. Qed.
Lemma sig_incr a b : a <= b -> 0 <= sig b - sig a <= (b - a) / 4.
Proof.
  intros [H|H]; [|subst; lra].
  destruct (MVT_cor2 sig (fun u => sig u * (1 - sig u)) a b H) as (c & E & _); [intros; apply sig_deriv|].
  rewrite E. pose proof (sig_slope c). split.
  - apply Rmult_le_pos; lra.
  - replace ((b - a) / 4) with (1 / 4 * (b - a)) by field. apply Rmult_le_compat_r; lra.
Qed.
Lemma sig_lipschitz a b : Rabs (sig a - sig b) <= Rabs (a - b) / 4.
Proof.
  destruct (Rle_dec a b) as [H|H].
  - pose proof (sig_incr a b H). rewrite (Rabs_left1 (sig a - sig b)), (Rabs_left1 (a - b)) by lra. lra.
  - pose proof (sig_incr b a ltac:(lra)). rewrite (Rabs_right (sig a - sig b)), (Rabs_right (a - b)) by lra. lra.
Qed.
Lemma sp_taylor u h : exists c, sp (u + h) - sp u - sig u * h = (sig (u + c) - sig u) * h /\ ((0 <= c <= h) \/ (h <= c <= 0)).
Proof.
  destruct (Rtotal_order h 0) as [H|[H|H]].
  - destruct (MVT_cor2 sp sig (u + h) u ltac:(lra)) as (c & E & Hc); [intros; apply sp_deriv|].
    exists (c - u). replace (u + (c - u)) with c by ring. split; [|right; lra]. lra.
  - exists 0. subst. rewrite !Rplus_0_r. split; [ring|lra].
  - destruct (MVT_cor2 sp sig u (u + h) ltac:(lra)) as (c & E & Hc); [intros; apply sp_deriv|].
    exists (c - u). replace (u + (c - u)) with c by ring. split; [|left; lra]. lra.
Qed.
Lemma sp_convex u h : sp u + sig u * h <= sp (u + h).
Proof.
  destruct (sp_taylor u h) as (c & E & [H|H]).
  - pose proof (sig_incr u (u + c) ltac:(lra)). assert (0 <= (sig (u + c) - sig u) * h) by (apply Rmult_le_pos; lra). lra.
  - pose proof (sig_incr (u + c) u ltac:(lra)). assert (0 <= (sig u - sig (u + c)) * (- h)) by (apply Rmult_le_pos; lra). lra.
Qed.
(** bound with constant 1/4 in place of 1/8 would be immediate; 1/8 needs a second mean value step *)
Lemma sp_curv u h : sp (u + h) <= sp u + sig u * h + h ^ 2 / 8.
Proof.
  set (psi := fun s => sp (u + s) - sig u * s - s ^ 2 / 8).
  assert (D : forall s, derivable_pt_lim psi s (sig (u + s) - sig u - s / 4)).
  { intros s. unfold psi.
    apply deriv_val with ((sig (u + s) * (0 + 1) - sig u * 1) - (INR 2 * s ^ Init.Nat.pred 2 * / 8 + s ^ 2 * 0)); [|simpl; field].
    apply (derivable_pt_lim_minus (fun s => sp (u + s) - sig u * s) (fun s => s ^ 2 / 8));
      [apply (derivable_pt_lim_minus (fun s => sp (u + s)) (fun s => sig u * s))|].
    - apply (derivable_pt_lim_comp (fun s => u + s) sp); [|apply sp_deriv].
      apply (derivable_pt_lim_plus (fun _ => u) (fun s => s)); [apply derivable_pt_lim_const|apply derivable_pt_lim_id].
    - apply (derivable_pt_lim_scal (fun s => s)). apply derivable_pt_lim_id.
    - apply (derivable_pt_lim_mult (fun s => s ^ 2) (fun _ => / 8)).
      + apply derivable_pt_lim_pow.
      + apply derivable_pt_lim_const. }
  assert (P0 : psi 0 = sp u) by (unfold psi; rewrite Rplus_0_r; field).
  assert (Ph : sp (u + h) = psi h + sig u * h + h ^ 2 / 8) by (unfold psi; ring).
  destruct (Rtotal_order h 0) as [H|[H|H]].
  - destruct (MVT_cor2 psi _ h 0 H (fun c _ => D c)) as (c & E & Hc). rewrite P0 in E.
    pose proof (sig_incr (u + c) u ltac:(lra)). assert (0 <= (sig (u + c) - sig u - c / 4) * (0 - h)) by (apply Rmult_le_pos; lra). lra.
  - subst. rewrite Ph, P0. lra.
  - destruct (MVT_cor2 psi _ 0 h H (fun c _ => D c)) as (c & E & Hc). rewrite P0 in E.
    pose proof (sig_incr u (u + c) ltac:(lra)). assert (0 <= (- (sig (u + c) - sig u - c / 4)) * (h - 0)) by (apply Rmult_le_pos; lra). lra.
Qed.

(** *** moving one row of coefficients by [d] *)
Definition shift (X Z : rmat) (j : nat) (d : nat -> R) : rmat := fun i t => Z i t + d t * X i j.

Lemma quad_move n T X Y Z j d : (1 <= n)%nat ->
  quad_loss_mt n T Y (shift X Z j d)
  = quad_loss_mt n T Y Z + Sum T (fun t => gq n X Y Z j t * d t) + Lq n X j / 2 * Sum T (fun t => d t ^ 2).
Proof.
  intros Hn. pose proof (INR_npos n Hn) as HN. unfold quad_loss_mt, shift.
  rewrite (Sum_swap n T (fun i t => (Y i t - (Z i t + d t * X i j)) ^ 2)), (Sum_swap n T (fun i t => (Y i t - Z i t) ^ 2)).
  rewrite <- !Sum_div, <- Sum_scal, <- !Sum_plus. apply Sum_ext. intros t _. unfold gq, Lq.
  rewrite (Sum_ext n (fun i => (Y i t - (Z i t + d t * X i j)) ^ 2)
    (fun i => (Y i t - Z i t) ^ 2 + (2 * d t * (X i j * Z i t) - 2 * d t * (X i j * Y i t) + d t ^ 2 * (X i j * X i j)))) by (intros; ring).
  rewrite !Sum_plus, Sum_minus, !Sum_scal. field. lra.
Qed.
Lemma log_move n X y Z j d : (1 <= n)%nat -> (forall i, (i < n)%nat -> Rabs (y i) <= 1) ->
  logloss n y (shift X Z j d)
  <= logloss n y Z + Sum 1 (fun t => glT n X y Z j t * d t) + Ll n X j / 2 * Sum 1 (fun t => d t ^ 2).
Proof.
  intros Hn Hy. pose proof (INR_npos n Hn) as HN. rewrite !(Sum_S 0), !Sum_0, !Rplus_0_l. set (e := d 0%nat).
  unfold logloss, logistic_loss, glT, gl, Ll, shift. fold e.
  apply Rle_trans with (Sum n (fun i => ln (1 + exp (- (y i * Z i 0%nat))) + (- e * (X i j * (y i * sig (- y i * Z i 0%nat))) + e ^ 2 / 8 * (X i j * X i j))) / INR n).
  - apply Rmult_le_compat_r; [left; apply Rinv_0_lt_compat; auto|]. apply Sum_le. intros i Hi.
    assert (C := sp_curv (- (y i * Z i 0%nat)) (- (y i * (e * X i j)))). unfold sp in C.
    replace (- (y i * Z i 0%nat) + - (y i * (e * X i j))) with (- (y i * (Z i 0%nat + e * X i j))) in C by ring.
    replace (- y i * Z i 0%nat) with (- (y i * Z i 0%nat)) by ring.
    assert (Q : (- (y i * (e * X i j))) ^ 2 <= (e * X i j) ^ 2).
    { replace ((- (y i * (e * X i j))) ^ 2) with (y i ^ 2 * (e * X i j) ^ 2) by ring. rewrite <- (Rmult_1_l ((e * X i j) ^ 2)) at 2.
      apply Rmult_le_compat_r; [apply pow2_ge_0|]. rewrite <- pow2_abs. pose proof (Rabs_pos (y i)). specialize (Hy i Hi). nra. }
    nra.
  - right. rewrite !Sum_plus, !Sum_scal. field. lra.
Qed.
Lemma log_move_convex n X y Z j d : (1 <= n)%nat ->
  logloss n y Z + Sum 1 (fun t => glT n X y Z j t * d t) <= logloss n y (shift X Z j d).
Proof.
  intros Hn. pose proof (INR_npos n Hn) as HN. rewrite !(Sum_S 0), !Sum_0, !Rplus_0_l. set (e := d 0%nat).
  unfold logloss, logistic_loss, glT, gl, shift. fold e.
  apply Rle_trans with (Sum n (fun i => ln (1 + exp (- (y i * Z i 0%nat))) + (- e * (X i j * (y i * sig (- y i * Z i 0%nat))))) / INR n).
  - right. rewrite !Sum_plus, !Sum_scal. field. lra.
  - apply Rmult_le_compat_r; [left; apply Rinv_0_lt_compat; auto|]. apply Sum_le. intros i Hi.
    assert (C := sp_convex (- (y i * Z i 0%nat)) (- (y i * (e * X i j)))). unfold sp in C.
    replace (- (y i * Z i 0%nat) + - (y i * (e * X i j))) with (- (y i * (Z i 0%nat + e * X i j))) in C by ring.
    replace (- y i * Z i 0%nat) with (- (y i * Z i 0%nat)) by ring. nra.
Qed.

(** *** global convexity along any direction (used by the optimality certificates) *)
Lemma quad_convex n T p X Y W V : (1 <= n)%nat ->
  quad_loss_mt n T Y (lin_mt p X W) + Sum p (fun j => Sum T (fun t => gq n X Y (lin_mt p X W) j t * (V j t - W j t)))
  <= quad_loss_mt n T Y (lin_mt p X V).
Proof.
  intros Hn. pose proof (INR_npos n Hn) as HN.
  set (Z := lin_mt p X W). set (Z' := lin_mt p X V).
  assert (G : Sum p (fun j => Sum T (fun t => gq n X Y Z j t * (V j t - W j t)))
            = Sum n (fun i => Sum T (fun t => (Z i t - Y i t) * (Z' i t - Z i t))) / INR n).
  { rewrite (Sum_swap p T), (Sum_swap n T (fun i t => (Z i t - Y i t) * (Z' i t - Z i t))), <- Sum_div. apply Sum_ext. intros t _.
    rewrite (Sum_ext n (fun i => (Z i t - Y i t) * (Z' i t - Z i t)) (fun i => Sum p (fun j => (Z i t - Y i t) * (X i j * (V j t - W j t))))).
    - rewrite (Sum_swap n p (fun i j => (Z i t - Y i t) * (X i j * (V j t - W j t)))), <- Sum_div. apply Sum_ext. intros j _. unfold gq.
      rewrite <- Sum_minus. unfold Rdiv. rewrite Rmult_assoc, (Rmult_comm (/ INR n)), <- Rmult_assoc. f_equal. rewrite <- Sum_scal_r.
      apply Sum_ext. intros i _. ring.
    - intros i _. rewrite Sum_scal. f_equal. unfold Z', Z, lin_mt. rewrite <- Sum_minus. apply Sum_ext. intros ? _. ring. }
  rewrite G. unfold quad_loss_mt.
  replace (Sum n (fun i => Sum T (fun t => (Z i t - Y i t) * (Z' i t - Z i t))) / INR n)
    with (Sum n (fun i => Sum T (fun t => 2 * ((Z i t - Y i t) * (Z' i t - Z i t)))) / (2 * INR n)).
  2:{ rewrite (Sum_ext n _ (fun i => 2 * Sum T (fun t => (Z i t - Y i t) * (Z' i t - Z i t)))) by (intros; apply Sum_scal).
      rewrite Sum_scal. field. lra. }
  unfold Rdiv. rewrite <- Rmult_plus_distr_r. apply Rmult_le_compat_r; [left; apply Rinv_0_lt_compat; lra|].
  rewrite <- Sum_plus. apply Sum_le. intros i _. rewrite <- Sum_plus. apply Sum_le. intros t _.
  pose proof (pow2_ge_0 (Z' i t - Z i t)). nra.
Qed.
Lemma log_convex n p X y W V : (1 <= n)%nat ->
  logloss n y (lin_mt p X W) + Sum p (fun j => Sum 1 (fun t => glT n X y (lin_mt p X W) j t * (V j t - W j t)))
  <= logloss n y (lin_mt p X V).
Proof.
  intros Hn. pose proof (INR_npos n Hn) as HN.
  set (z := fun i => lin_mt p X W i 0%nat). set (z' := fun i => lin_mt p X V i 0%nat).
  assert (G : Sum p (fun j => Sum 1 (fun t => glT n X y (lin_mt p X W) j t * (V j t - W j t)))
            = - Sum n (fun i => y i * sig (- y i * z i) * (z' i - z i)) / INR n).
  { rewrite (Sum_ext n (fun i => y i * sig (- y i * z i) * (z' i - z i)) (fun i => Sum p (fun j => y i * sig (- y i * z i) * (X i j * (V j 0%nat - W j 0%nat))))).
    - rewrite (Sum_swap n p (fun i j => y i * sig (- y i * z i) * (X i j * (V j 0%nat - W j 0%nat)))), Ropp_div, <- Sum_div, <- Sum_opp.
      apply Sum_ext. intros j _. rewrite Sum_S, Sum_0, Rplus_0_l. unfold glT, gl. fold (z).
      rewrite (Sum_ext n (fun i => y i * sig (- y i * z i) * (X i j * (V j 0%nat - W j 0%nat))) (fun i => (X i j * (y i * sig (- y i * z i))) * (V j 0%nat - W j 0%nat))) by (intros; ring).
      rewrite Sum_scal_r. unfold z. field. lra.
    - intros i _. rewrite Sum_scal. f_equal. unfold z', z, lin_mt. rewrite <- Sum_minus. apply Sum_ext. intros ? _. ring. }
  rewrite G. unfold logloss, logistic_loss. fold z z'. unfold Rdiv. rewrite <- Rmult_plus_distr_r.
  apply Rmult_le_compat_r; [left; apply Rinv_0_lt_compat; lra|]. rewrite <- Sum_opp, <- Sum_plus. apply Sum_le. intros i _.
  assert (C := sp_convex (- (y i * z i)) (- (y i * (z' i - z i)))). unfold sp in C.
  replace (- (y i * z i) + - (y i * (z' i - z i))) with (- (y i * z' i)) in C by ring.
  replace (- y i * z i) with (- (y i * z i)) by ring. eapply Rle_trans; [|exact C]. right. unfold z. ring.
Qed.

(** *** derivatives *)
Lemma deriv_quadratic f x0 a g c : (forall s, f s = a + g * (s - x0) + c * (s - x0) ^ 2) -> derivable_pt_lim f x0 g.
Proof.
  intros H eps He. pose proof (Rabs_pos c) as Hc.
  assert (Hd : 0 < eps / (Rabs c + 1)) by (apply Rdiv_lt_0_compat; lra).
  exists (mkposreal _ Hd). intros h Hh Hlt. simpl in Hlt. rewrite !H.
  replace ((a + g * (x0 + h - x0) + c * (x0 + h - x0) ^ 2 - (a + g * (x0 - x0) + c * (x0 - x0) ^ 2)) / h - g) with (c * h) by (field; auto).
  rewrite Rabs_mult. apply Rle_lt_trans with ((Rabs c + 1) * Rabs h); [pose proof (Rabs_pos h); nra|].
  apply (Rmult_lt_compat_l (Rabs c + 1)) in Hlt; [|lra].
  replace ((Rabs c + 1) * (eps / (Rabs c + 1))) with eps in Hlt by (field; lra). auto.
Qed.
Lemma deriv_ext f f' x g : (forall s, f s = f' s) -> derivable_pt_lim f x g -> derivable_pt_lim f' x g.
Proof. intros H D eps He. destruct (D eps He) as (dl & Hd). exists dl. intros h. rewrite <- !H. apply Hd. Qed.
Lemma deriv_Sum n (f : nat -> R -> R) g x : (forall i, (i < n)%nat -> derivable_pt_lim (f i) x (g i)) ->
  derivable_pt_lim (fun s => Sum n (fun i => f i s)) x (Sum n g).
Proof.
  induction n as [|n IH]; intros H.
  - apply (deriv_ext (fun _ => 0)); [intros; rewrite Sum_0; auto|]. rewrite Sum_0. apply derivable_pt_lim_const.
  - apply (deriv_ext (fun s => Sum n (fun i => f i s) + f n s)); [intros; rewrite Sum_S; auto|]. rewrite Sum_S.
    apply (derivable_pt_lim_plus (fun s => Sum n (fun i => f i s)) (f n)); [apply IH; auto|apply H; lia].
Qed.
Lemma lin_set1 p X w j s i : (j < p)%nat -> lin p X (set1 w j s) i = lin p X w i + (s - w j) * X i j.
Proof.
  intros Hj. unfold lin. rewrite (Sum_upd p _ (fun k => X i k * w k) j Hj).
  - unfold set1. rewrite Nat.eqb_refl. ring.
  - intros k _ Hk. unfold set1. rewrite (proj2 (Nat.eqb_neq k j)) by auto. reflexivity.
Qed.
Lemma lin_set2 p X W j t s i u : (j < p)%nat ->
  lin_mt p X (set2 W j t s) i u = lin_mt p X W i u + (if (u =? t)%nat then s - W j t else 0) * X i j.
Proof.
  intros Hj. unfold lin_mt. rewrite (Sum_upd p _ (fun k => X i k * W k u) j Hj).
  - unfold set2. rewrite Nat.eqb_refl. cbn [andb]. destruct (u =? t)%nat eqn:E; [apply Nat.eqb_eq in E; subst; ring|ring].
  - intros k _ Hk. unfold set2. rewrite (proj2 (Nat.eqb_neq k j)) by auto. reflexivity.
Qed.
Lemma quad_single n y Z : quad_loss_mt n 1 (fun i _ => y i) Z = quad_loss n y (fun i => Z i 0%nat).
Proof. unfold quad_loss_mt, quad_loss. f_equal. apply Sum_ext. intros. rewrite Sum_S, Sum_0. ring. Qed.

Lemma quad_deriv n p X y w j : (1 <= n)%nat -> (j < p)%nat ->
  derivable_pt_lim (fun s => quad_loss n y (lin p X (set1 w j s))) (w j)
    (gq n X (fun i _ => y i) (fun i _ => lin p X w i) j 0%nat).
Proof.
  intros Hn Hj. eapply deriv_quadratic with (a := quad_loss n y (lin p X w)) (c := Lq n X j / 2). intros s.
  assert (M := quad_move n 1 X (fun i _ => y i) (fun i _ => lin p X w i) j (fun _ => s - w j) Hn).
  rewrite !quad_single, !(Sum_S 0), !Sum_0, !Rplus_0_l in M. etransitivity; [|exact M]. unfold quad_loss. f_equal. apply Sum_ext. intros i _.
  rewrite lin_set1 by auto. reflexivity.
Qed.
Lemma quad_mt_deriv n T p X Y W j t : (1 <= n)%nat -> (j < p)%nat -> (t < T)%nat ->
  derivable_pt_lim (fun s => quad_loss_mt n T Y (lin_mt p X (set2 W j t s))) (W j t)
    (gq n X Y (lin_mt p X W) j t).
Proof.
  intros Hn Hj Ht. eapply deriv_quadratic with (a := quad_loss_mt n T Y (lin_mt p X W)) (c := Lq n X j / 2). intros s.
  assert (M := quad_move n T X Y (lin_mt p X W) j (fun u => if (u =? t)%nat then s - W j t else 0) Hn).
  rewrite (Sum_single T _ t Ht) in M by (intros u _ Hu; rewrite (proj2 (Nat.eqb_neq u t)) by auto; ring).
  rewrite (Sum_single T (fun u => (if (u =? t)%nat then s - W j t else 0) ^ 2) t Ht) in M by (intros u _ Hu; rewrite (proj2 (Nat.eqb_neq u t)) by auto; ring).
  rewrite Nat.eqb_refl in M. rewrite <- M. unfold quad_loss_mt. f_equal. apply Sum_ext. intros i _. apply Sum_ext. intros u _.
  rewrite lin_set2 by auto. reflexivity.
Qed.
Lemma log_deriv n p X y w j : (1 <= n)%nat -> (j < p)%nat ->
  derivable_pt_lim (fun s => logistic_loss n y (lin p X (set1 w j s))) (w j) (gl n X y (fun i _ => lin p X w i) j).
Proof.
  intros Hn Hj. pose proof (INR_npos n Hn) as HN.
  apply (deriv_ext (fun s => / INR n * Sum n (fun i => sp (- y i * X i j * s + (- y i * (lin p X w i - w j * X i j)))))).
  - intros s. unfold logistic_loss, Rdiv. rewrite Rmult_comm. f_equal. apply Sum_ext. intros i _. unfold sp.
    rewrite lin_set1 by auto. do 3 f_equal. ring.
  - unfold gl. replace (- Sum n _ / INR n) with (/ INR n * Sum n (fun i => sig (- y i * lin p X w i) * (- y i * X i j))).
    2:{ rewrite Ropp_div, <- Sum_div, <- Sum_opp, <- Sum_scal. apply Sum_ext. intros i _. unfold Rdiv. ring. }
    apply (derivable_pt_lim_scal (fun s => Sum n (fun i => sp (- y i * X i j * s + - y i * (lin p X w i - w j * X i j))))). apply (deriv_Sum n). intros i _.
    apply (derivable_pt_lim_comp (fun s => - y i * X i j * s + - y i * (lin p X w i - w j * X i j)) sp).
    + apply deriv_val with (- y i * X i j * 1 + 0); [|ring].
      apply (derivable_pt_lim_plus (fun s => - y i * X i j * s) (fun _ => - y i * (lin p X w i - w j * X i j))).
      * apply (derivable_pt_lim_scal (fun s => s)). apply derivable_pt_lim_id.
      * apply derivable_pt_lim_const.
    + replace (- y i * X i j * w j + - y i * (lin p X w i - w j * X i j)) with (- y i * lin p X w i) by ring. apply sp_deriv.
Qed.
