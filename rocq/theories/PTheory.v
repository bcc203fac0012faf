(** The losses and penalties of the estimators satisfy the hypotheses of the descent and
    convergence arguments. *)
From Coq Require Import List ZArith Bool Arith Reals Lra Lia.
From Verif Require Import Ops Arr XR SpecPen VecR MUtils MPenalties MBlockPenalties MCd PRefCD PBase RSum PProx PProxBlock SpecLin SpecData PDatafit PCalc PDataProps PAnderson SpecSolve PStruct PNoPanic PLaws PRef PRefPen PSim PFit PSubdiff PSubdiffBlock PSymProps PDescent PConv.
Import ListNotations.
Open Scope R_scope.

(** *** sums, finite bounds *)
Lemma Sum_const0 n : Sum n (fun _ => 0) = 0.
Proof. apply Sum_zero. auto. Qed.
Lemma Sum_abs n f : Rabs (Sum n f) <= Sum n (fun i => Rabs (f i)).
Proof.
  induction n as [|n IH]; [rewrite !Sum_0, Rabs_R0; lra|]. rewrite !Sum_S. apply Rle_trans with (1 := Rabs_triang _ _). lra.
Qed.
Lemma finite_lower p (Q : nat -> Prop) f : (forall j, (j < p)%nat -> Q j -> 0 < f j) -> exists k, 0 < k /\ forall j, (j < p)%nat -> Q j -> k <= f j.
Proof.
  induction p as [|p IH]; intros H; [exists 1; split; [lra|intros; lia]|]. destruct IH as (k & Hk & HA); [intros; apply H; auto|].
  destruct (Rlt_dec 0 (f p)) as [Hp|Hp].
  - exists (Rmin k (f p)). split; [apply Rmin_pos; auto|]. intros j Hj Hq. destruct (Nat.eq_dec j p) as [->|]; [apply Rmin_r|]. apply Rle_trans with k; [apply Rmin_l|apply HA; auto; lia].
  - exists k. split; auto. intros j Hj Hq. destruct (Nat.eq_dec j p) as [->|]; [exfalso; apply Hp; auto|]. apply HA; auto; lia.
Qed.
Lemma finite_upper p (Q : nat -> R -> Prop) : (forall j b b', (j < p)%nat -> Q j b -> b <= b' -> Q j b') -> (forall j, (j < p)%nat -> exists b, Q j b) ->
  exists B, 0 <= B /\ forall j, (j < p)%nat -> Q j B.
Proof.
  induction p as [|p IH]; intros Hm H; [exists 0; split; [lra|intros; lia]|]. destruct IH as (B & HB & HA); [intros; eapply Hm; eauto|intros; apply H; lia|].
  destruct (H p ltac:(lia)) as (b & Hb). exists (Rmax B b). split; [apply Rle_trans with (1 := HB); apply Rmax_l|].
  intros j Hj. destruct (Nat.eq_dec j p) as [->|]; [apply Hm with b; auto; apply Rmax_r|]. apply Hm with B; auto; [apply HA; lia|apply Rmax_l].
Qed.

(** *** losses *)
Section Quad.
Variables (n p T : nat) (X Y : rmat) (prox : list R -> R -> list R) (pv : list R -> R) (dist : list R -> list R -> R).
Hypothesis Hn : (1 <= n)%nat.
Let P := Problem n p T X (quad_loss_mt n T Y) (gq n X Y) (Lq n X) prox pv dist.
Lemma Lq_zero j : Lq n X j = 0 -> forall i, (i < n)%nat -> X i j = 0.
Proof.
  intros E i Hi. pose proof (INR_npos n Hn). unfold Lq in E. assert (S0 : Sum n (fun i => X i j * X i j) = 0).
  { apply Rmult_eq_reg_r with (/ INR n); [unfold Rdiv in E; rewrite E; ring|]. apply Rinv_neq_0_compat. lra. }
  assert (Q := Sum_nonneg_zero n (fun i => X i j * X i j) ltac:(intros; nra) S0 i Hi). cbv beta in Q. apply Rmult_integral in Q. tauto.
Qed.
Lemma Lq_pos j : (exists i, (i < n)%nat /\ X i j <> 0) -> Lq n X j <> 0.
Proof. intros (i & Hi & Hx) E. apply Hx. apply Lq_zero; auto. Qed.
Lemma Lq_live j : Lq n X j <> 0 -> exists i, (i < n)%nat /\ X i j <> 0.
Proof.
  intros HL. destruct (Req_dec (Sum n (fun i => Rabs (X i j))) 0) as [E|E].
  - exfalso. apply HL. unfold Lq. rewrite (Sum_ext n _ (fun _ => 0)); [rewrite Sum_const0; unfold Rdiv; ring|].
    intros i Hi. assert (Q := Sum_nonneg_zero n (fun i => Rabs (X i j)) ltac:(intros; apply Rabs_pos) E i Hi). cbv beta in Q.
    destruct (Req_dec (X i j) 0) as [E'|E']; [rewrite E'; ring|]. apply Rabs_no_R0 in E'. contradiction.
  - clear HL. revert E. generalize n. intros m. induction m as [|m IH]; intros E; [rewrite Sum_0 in E; contradiction|]. rewrite Sum_S in E.
    destruct (Req_dec (X m j) 0) as [E'|E']; [|exists m; split; [lia|auto]]. rewrite E', Rabs_R0, Rplus_0_r in E. destruct (IH E) as (i & Hi & Hx). exists i. split; [lia|auto].
Qed.
Lemma quad_data : data_theory P.
Proof.
  pose proof (INR_npos n Hn) as HN. constructor; unfold P; cbn [pn pp pT pX pf pg pL].
  - intros Z Z' H. unfold quad_loss_mt. f_equal. apply Sum_ext. intros i Hi. apply Sum_ext. intros t Ht. rewrite H; auto.
  - intros Z Z' j H Hj t Ht. unfold gq. f_equal. f_equal. apply Sum_ext. intros i Hi. rewrite H; auto.
  - intros j. apply Lq_nonneg; auto.
  - intros Z j d Hj. rewrite quad_move by auto. lra.
  - intros Z j t Hj E. pose proof (Lq_zero j E) as HX. unfold gq. rewrite (Sum_ext n (fun i => X i j * Z i t) (fun _ => 0)), (Sum_ext n (fun i => X i j * Y i t) (fun _ => 0)), !Sum_const0; [unfold Rdiv; ring| |]; intros i Hi; rewrite HX by auto; ring.
  - intros Z. unfold quad_loss_mt. apply Rmult_le_pos; [|left; apply Rinv_0_lt_compat; lra]. apply Sum_nonneg. intros. apply Sum_nonneg. intros. apply pow2_ge_0.
Qed.
Definition Hbound : R := Sum p (fun j => Sum p (fun k => Sum n (fun i => Rabs (X i k) * Rabs (X i j)) / INR n)).
Lemma Hterm_nonneg j k : 0 <= Sum n (fun i => Rabs (X i k) * Rabs (X i j)) / INR n.
Proof. pose proof (INR_npos n Hn). apply Rmult_le_pos; [|left; apply Rinv_0_lt_compat; auto]. apply Sum_nonneg. intros. apply Rmult_le_pos; apply Rabs_pos. Qed.
Lemma Hbound_term j k : (j < p)%nat -> (k < p)%nat -> Sum n (fun i => Rabs (X i k) * Rabs (X i j)) / INR n <= Hbound.
Proof.
  intros Hj Hk. apply Rle_trans with (Sum p (fun k => Sum n (fun i => Rabs (X i k) * Rabs (X i j)) / INR n)).
  - apply (Sum_ge_term p (fun k => Sum n (fun i => Rabs (X i k) * Rabs (X i j)) / INR n) k); auto. intros. apply Hterm_nonneg.
  - apply (Sum_ge_term p (fun j => Sum p (fun k => Sum n (fun i => Rabs (X i k) * Rabs (X i j)) / INR n)) j); auto. intros. apply Sum_nonneg. intros. apply Hterm_nonneg.
Qed.
Lemma Hbound_nonneg : 0 <= Hbound.
Proof. apply Sum_nonneg. intros. apply Sum_nonneg. intros. apply Hterm_nonneg. Qed.
Lemma quad_lip_term Z j k d : (j < p)%nat -> (k < p)%nat ->
  norm2 (vminus (row P (pg P (shift X Z j d)) k) (row P (pg P Z) k)) <= Sum n (fun i => Rabs (X i k) * Rabs (X i j)) / INR n * norm2 (tab T d).
Proof.
  intros Hj Hk. unfold row, P. cbn [pT pg]. pose proof (INR_npos n Hn). rewrite vminus_tab. set (a := Sum n (fun i => X i k * X i j) / INR n).
  rewrite (tab_ext T _ (fun t => a * d t)).
  - rewrite <- vscale_tab, norm2_scale. apply Rmult_le_compat_r; [apply norm2_pos|].
    unfold a, Rdiv. rewrite Rabs_mult, (Rabs_right (/ INR n)) by (left; apply Rinv_0_lt_compat; auto). apply Rmult_le_compat_r; [left; apply Rinv_0_lt_compat; auto|].
    apply Rle_trans with (1 := Sum_abs _ _). right. apply Sum_ext. intros. apply Rabs_mult.
  - intros t Ht. unfold gq, shift, a. rewrite (Sum_ext n (fun i => X i k * (Z i t + d t * X i j)) (fun i => X i k * Z i t + d t * (X i k * X i j))) by (intros; ring).
    rewrite Sum_plus, Sum_scal. field. lra.
Qed.
Lemma quad_lip Z j k d : (j < p)%nat -> (k < p)%nat -> norm2 (vminus (row P (pg P (shift X Z j d)) k) (row P (pg P Z) k)) <= Hbound * norm2 (tab T d).
Proof. intros Hj Hk. apply Rle_trans with (1 := quad_lip_term Z j k d Hj Hk). apply Rmult_le_compat_r; [apply norm2_pos|]. apply Hbound_term; auto. Qed.
End Quad.

Section Log.
Variables (n p : nat) (X : rmat) (y : nat -> R) (prox : R -> R -> R) (pv : R -> R) (dist : R -> R -> R).
Hypotheses (Hn : (1 <= n)%nat) (Hy : forall i, (i < n)%nat -> Rabs (y i) <= 1).
Let P := logP n p X y prox pv dist.
Lemma Ll_Lq j : Ll n X j = Lq n X j / 4.
Proof. unfold Ll, Lq. pose proof (INR_npos n Hn). field. lra. Qed.
Lemma log_data : data_theory P.
Proof.
  pose proof (INR_npos n Hn) as HN. constructor; unfold P, logP, single_problem; cbn [pn pp pT pX pf pg pL].
  - intros Z Z' H. unfold logloss, logistic_loss. f_equal. apply Sum_ext. intros i Hi. rewrite (H i 0%nat); auto.
  - intros Z Z' j H Hj t Ht. unfold glT, gl. f_equal. f_equal. apply Sum_ext. intros i Hi. rewrite (H i 0%nat); auto.
  - intros j. apply Ll_nonneg; auto.
  - intros Z j d Hj. apply log_move; auto.
  - intros Z j t Hj E. rewrite Ll_Lq in E. assert (HX := Lq_zero n X Hn j ltac:(lra)). unfold glT, gl.
    rewrite (Sum_ext n _ (fun _ => 0)), Sum_const0; [unfold Rdiv; ring|]. intros i Hi. rewrite HX by auto. ring.
  - intros Z. unfold logloss, logistic_loss. apply Rmult_le_pos; [|left; apply Rinv_0_lt_compat; lra]. apply Sum_nonneg. intros i _.
    pose proof (exp_pos (- (y i * Z i 0%nat))). rewrite <- ln_1. left. apply ln_increasing; lra.
Qed.
Lemma log_lip_term Z j k d : (j < p)%nat -> (k < p)%nat ->
  norm2 (vminus (row P (pg P (shift X Z j d)) k) (row P (pg P Z) k)) <= Sum n (fun i => Rabs (X i k) * Rabs (X i j)) / INR n * norm2 (tab 1 d).
Proof.
  intros Hj Hk. unfold row, P, logP, single_problem. cbn [pT pg]. pose proof (INR_npos n Hn) as HN. rewrite vminus_tab. unfold tab at 1 2. cbn [seq map]. rewrite !norm2_1.
  unfold glT, gl, shift.
  replace (- Sum n (fun i => X i k * (y i * sig (- y i * (Z i 0%nat + d 0%nat * X i j)))) / INR n - - Sum n (fun i => X i k * (y i * sig (- y i * Z i 0%nat))) / INR n)
    with (Sum n (fun i => X i k * (y i * (sig (- y i * Z i 0%nat) - sig (- y i * (Z i 0%nat + d 0%nat * X i j))))) / INR n).
  2:{ rewrite (Sum_ext n (fun i => X i k * (y i * (_ - _))) (fun i => X i k * (y i * sig (- y i * Z i 0%nat)) - X i k * (y i * sig (- y i * (Z i 0%nat + d 0%nat * X i j))))) by (intros; ring).
      rewrite Sum_minus. field. lra. }
  unfold Rdiv. rewrite Rabs_mult, (Rabs_right (/ INR n)) by (left; apply Rinv_0_lt_compat; auto).
  rewrite Rmult_assoc, (Rmult_comm (/ INR n)), <- Rmult_assoc. apply Rmult_le_compat_r; [left; apply Rinv_0_lt_compat; auto|].
  rewrite <- Sum_scal_r. apply Rle_trans with (1 := Sum_abs _ _). apply Sum_le. intros i Hi. rewrite !Rabs_mult, !Rmult_assoc. apply Rmult_le_compat_l; [apply Rabs_pos|].
  pose proof (sig_lipschitz (- y i * Z i 0%nat) (- y i * (Z i 0%nat + d 0%nat * X i j))) as L1. pose proof (Hy i Hi) as Hyi. pose proof (Rabs_pos (y i)) as Hy0.
  replace (- y i * Z i 0%nat - - y i * (Z i 0%nat + d 0%nat * X i j)) with (y i * (d 0%nat * X i j)) in L1 by ring. rewrite !Rabs_mult in L1.
  pose proof (Rabs_pos (sig (- y i * Z i 0%nat) - sig (- y i * (Z i 0%nat + d 0%nat * X i j)))) as S0. set (S := Rabs (sig _ - sig _)) in *.
  pose proof (Rabs_pos (d 0%nat)). pose proof (Rabs_pos (X i j)). set (D := Rabs (d 0%nat)) in *. set (XX := Rabs (X i j)) in *. set (YY := Rabs (y i)) in *.
  assert (0 <= D * XX) by (apply Rmult_le_pos; auto). apply Rle_trans with (1 * S); [apply Rmult_le_compat_r; auto|].
  assert (YY * (D * XX) <= 1 * (D * XX)) by (apply Rmult_le_compat_r; auto). lra.
Qed.
Lemma log_lip Z j k d : (j < p)%nat -> (k < p)%nat -> norm2 (vminus (row P (pg P (shift X Z j d)) k) (row P (pg P Z) k)) <= Hbound n p X * norm2 (tab 1 d).
Proof. intros Hj Hk. apply Rle_trans with (1 := log_lip_term Z j k d Hj Hk). apply Rmult_le_compat_r; [apply norm2_pos|]. apply Hbound_term; auto. Qed.
End Log.

(** *** penalties: a violation at zero forces a move away from zero *)
Definition zero_moves (T : nat) (prox : list R -> R -> list R) (dist : list R -> list R -> R) (L M : R) : Prop :=
  forall g, length g = T -> dist (repeat 0 T) g <= M * norm2 (prox (tab T (fun t => 0 - nth t g 0 / L)) (1 / L)).
Lemma zero_moves1 prox dist L M : (forall g, dist 0 g <= M * Rabs (prox (- g / L) (1 / L))) -> zero_moves 1 (lprox prox) (ldist dist) L M.
Proof.
  intros H g Hg. destruct (len1 g Hg) as (x & ->). unfold lprox, ldist, tab. cbn [seq map nth repeat]. rewrite norm2_1. replace (0 - x / L) with (- x / L) by (unfold Rdiv; ring). apply H.
Qed.
Lemma soft_abs v t : 0 <= t -> Rabs v - t <= Rabs (rsoft v t).
Proof.
  intros Ht. unfold rsoft. destruct (Rltb t v) eqn:E1; [rb; rewrite !Rabs_right by lra; lra|]. rb. destruct (Rltb v (- t)) eqn:E2; rb.
  - rewrite !Rabs_left1 by lra. lra.
  - rewrite Rabs_R0. assert (Rabs v <= t) by (apply Rabs_le; lra). lra.
Qed.
Lemma abs_scaled g L : 0 < L -> L * Rabs (- g / L) = Rabs g.
Proof. intros HL. unfold Rdiv. rewrite Rabs_mult, Rabs_Ropp, (Rabs_right (/ L)) by (left; apply Rinv_0_lt_compat; auto). field. lra. Qed.
Lemma l1_moves a L : 0 <= a -> 0 < L -> zero_moves 1 (lprox (fun v s => rsoft v (a * s))) (ldist (r_l1_score a)) L L.
Proof.
  intros Ha HL. apply zero_moves1. intros g. unfold r_l1_score. rewrite Reqb_refl. pose proof (Rabs_pos (rsoft (- g / L) (a * (1 / L)))) as H0.
  assert (H1 := soft_abs (- g / L) (a * (1 / L)) ltac:(apply Rmult_le_pos; auto; left; apply Rdiv_lt_0_compat; lra)). apply (Rmult_le_compat_l L) in H1; [|lra].
  rewrite Rmult_minus_distr_l, abs_scaled in H1 by auto. replace (L * (a * (1 / L))) with a in H1 by (field; lra). apply Rmax_lub; auto. apply Rmult_le_pos; lra.
Qed.
Lemma l1l2_moves a r L : 0 <= a -> 0 <= r <= 1 -> 0 < L -> zero_moves 1 (lprox (enet_prox a r)) (ldist (r_l1l2_score a r)) L (L + (1 - r) * a).
Proof.
  intros Ha Hr HL. assert (Hq : 0 <= (1 - r) * a) by (apply Rmult_le_pos; lra). assert (Hs : 0 < 1 / L) by (apply Rdiv_lt_0_compat; lra).
  assert (Hd : 0 < 1 + 1 / L * (1 - r) * a) by (assert (0 <= 1 / L * ((1 - r) * a)) by (apply Rmult_le_pos; lra); lra).
  apply zero_moves1. intros g. unfold r_l1l2_score, enet_prox. rewrite Reqb_refl.
  assert (H1 := soft_abs (- g / L) (r * a * (1 / L)) ltac:(apply Rmult_le_pos; [apply Rmult_le_pos; lra|lra])).
  pose proof (Rabs_pos (rsoft (- g / L) (r * a * (1 / L)))) as H0. set (u := rsoft (- g / L) (r * a * (1 / L))) in *.
  replace ((L + (1 - r) * a) * Rabs (u / (1 + 1 / L * (1 - r) * a))) with (L * Rabs u).
  - apply (Rmult_le_compat_l L) in H1; [|lra].
    rewrite Rmult_minus_distr_l, abs_scaled in H1 by auto. replace (L * (r * a * (1 / L))) with (a * r) in H1 by (field; lra). apply Rmax_lub; auto. apply Rmult_le_pos; lra.
  - set (dd := 1 + 1 / L * (1 - r) * a) in *. unfold Rdiv. rewrite Rabs_mult, (Rabs_right (/ dd)) by (left; apply Rinv_0_lt_compat; auto). unfold dd. field. split; lra.
Qed.
Lemma mcp_moves a g L : 0 <= a -> 0 < g -> 0 < L -> 1 / L < g -> zero_moves 1 (lprox (fun v s => rmcp_prox a g s v)) (ldist (r_mcp_score a g)) L L.
Proof.
  intros Ha Hg HL Hs. assert (H0s : 0 < 1 / L) by (apply Rdiv_lt_0_compat; lra). apply zero_moves1. intros h. unfold r_mcp_score. rewrite Reqb_refl.
  assert (H1 : Rabs (- h / L) - a * (1 / L) <= Rabs (rmcp_prox a g (1 / L) (- h / L))).
  { set (v := - h / L). set (s := 1 / L) in *. unfold rmcp_prox. assert (H2 : 0 <= a * s) by (apply Rmult_le_pos; lra).
    destruct (Rleb (Rabs v) (a * s)) eqn:E1; rb; [rewrite Rabs_R0; lra|]. destruct (Rltb _ _); [lra|].
    assert (Hq : 0 < 1 - 1 / (g / s) <= 1).
    { replace (1 / (g / s)) with (s / g) by (field; lra). assert (0 < s / g) by (apply Rdiv_lt_0_compat; lra). split; [|lra].
      apply Rlt_Rminus. apply Rmult_lt_reg_r with g; auto. unfold Rdiv. rewrite Rmult_assoc, Rinv_l by lra. lra. }
    set (q := 1 - 1 / (g / s)) in *. unfold Rdiv. rewrite !Rabs_mult. replace (Rabs (if Rltb v 0 then -1 else 1)) with 1 by (destruct (Rltb v 0); [rewrite Rabs_left|rewrite Rabs_right]; lra).
    rewrite (Rabs_right (Rabs v - a * s)) by lra. rewrite (Rabs_right (/ q)) by (left; apply Rinv_0_lt_compat; lra).
    rewrite Rmult_1_l. rewrite <- (Rmult_1_r (Rabs v - a * s)) at 1. apply Rmult_le_compat_l; [lra|]. rewrite <- Rinv_1. apply Rinv_le_contravar; lra. }
  pose proof (Rabs_pos (rmcp_prox a g (1 / L) (- h / L))) as H0. apply (Rmult_le_compat_l L) in H1; [|lra].
  rewrite Rmult_minus_distr_l, abs_scaled in H1 by auto. replace (L * (a * (1 / L))) with a in H1 by (field; lra). apply Rmax_lub; auto. apply Rmult_le_pos; lra.
Qed.
Lemma l21_moves T a L : 0 < a -> 0 < L -> zero_moves T (bprox (l21_penalty xops) (L21 (Fin a))) (r_l21_score a) L L.
Proof.
  intros Ha HL g Hg. unfold r_l21_score. rewrite norm2_0, Reqb_refl. unfold bprox. cbn [bpen_prox l21_penalty]. unfold l21_prox. cbn [l21_alpha].
  set (v := tab T (fun t => 0 - nth t g 0 / L)). assert (Hs : 0 < 1 / L) by (apply Rdiv_lt_0_compat; lra). assert (Hat : 0 < a * (1 / L)) by (apply Rmult_lt_0_compat; auto).
  cbn [fmul xops xmul]. rewrite bst_fin, toR_Fin by auto.
  assert (Nv : norm2 g = L * norm2 v).
  { assert (E : g = vscale (- L) v). { unfold v. rewrite vscale_tab, (tab_nth_len T g 0 Hg) at 1. apply tab_ext. intros. field. lra. }
    rewrite E, norm2_scale, Rabs_Ropp, Rabs_right by lra. reflexivity. }
  assert (Hb : norm2 v - a * (1 / L) <= norm2 (rbst v (a * (1 / L)))).
  { pose proof (norm2_pos v) as Hv. destruct (Req_dec (norm2 v) 0) as [E|E]; [pose proof (norm2_pos (rbst v (a * (1 / L)))); lra|].
    rewrite rbst_form by lra. rewrite norm2_scale. unfold Rdiv at 2. rewrite Rabs_mult, (Rabs_right (/ norm2 v)), Rmult_assoc, Rinv_l by (try (left; apply Rinv_0_lt_compat); lra).
    rewrite Rmult_1_r. apply Rle_trans with (2 := Rle_abs _). apply Rmax_r. }
  pose proof (norm2_pos (rbst v (a * (1 / L)))) as H0. apply (Rmult_le_compat_l L) in Hb; [|lra]. rewrite Rmult_minus_distr_l, <- Nv in Hb.
  replace (L * (a * (1 / L))) with a in Hb by (field; lra). apply Rmax_lub; auto. apply Rmult_le_pos; lra.
Qed.

Lemma INR_above x : exists N, x < INR N.
Proof.
  destruct (archimed x) as [H _]. exists (Z.to_nat (up x)). destruct (Z_le_gt_dec 0 (up x)) as [Hz|Hz].
  - rewrite INR_IZR_INZ, Z2Nat.id by auto. lra.
  - assert (IZR (up x) <= -1) by (apply IZR_le; lia). pose proof (pos_INR (Z.to_nat (up x))). lra.
Qed.
Lemma bound_up (P : problem) td B : 0 <= B -> (forall j, (j < pp P)%nat -> pL P j <= B /\ (live P j -> zero_moves (pT P) (pprox P) td (pL P j) B)) ->
  exists B', 0 < B' /\ forall j, (j < pp P)%nat -> pL P j <= B' /\ (live P j -> zero_moves (pT P) (pprox P) td (pL P j) B').
Proof.
  intros H0 HB. exists (B + 1). split; [lra|]. intros j Hj. destruct (HB j Hj) as [Q1 Q2]. split; [lra|]. intros Hl g Hg. apply Rle_trans with (1 := Q2 Hl g Hg).
  apply Rmult_le_compat_r; [apply norm2_pos|lra].
Qed.
(** *** convergence of the whole reference solver *)
Section Solve.
Variables (P : problem) (okstep : R -> Prop) (c : R -> R) (srt : list xr -> list nat).
Local Notation p := (pp P). Local Notation T := (pT P).
Hypotheses (VS : valid_sort xops srt) (DT : data_theory P) (PT : pen_theory T (pprox P) (ppv P) okstep c)
  (HL : forall j, (j < p)%nat -> pL P j <> 0 -> okstep (1 / pL P j)).
Lemma start_fitted : fitted P (fun _ _ => 0, fun _ _ => 0).
Proof. intros i t _ _. cbn [fst snd]. unfold lin_mt. rewrite Sum_zero; auto. intros. ring. Qed.
Lemma solve_inv tol K acc ws0 me it st : rsolve P srt tol K acc ws0 me it = Ret st ->
  obj P st <= obj P (fun _ _ => 0, fun _ _ => 0) /\ fitted P st /\ dead_zero P (fst st).
Proof.
  intros E. destruct (router_inv P okstep c srt VS DT PT HL tol K acc (Nat.min ws0 p) me (Nat.le_min_r _ _) it _ _ st E) as (H1 & H2 & H3).
  split; auto. split; [apply H2, start_fitted|apply H3]. intros ? ? ? ? ?. reflexivity.
Qed.
(** a larger budget continues the run of a smaller one *)
Lemma solve_more tol K acc ws0 me it more st' : rsolve P srt tol K acc ws0 me (it + more) = Ret st' ->
  exists st, rsolve P srt tol K acc ws0 me it = Ret st /\ router P srt tol K acc (Nat.min ws0 p) me more (fst st) (snd st) = Ret st' /\ obj P st' <= obj P st.
Proof.
  unfold rsolve. rewrite router_add. destruct (router _ _ _ _ _ _ _ it _ _) as [st|] eqn:E; cbn [bind]; [|discriminate]. intros E'. exists st. split; auto. split; auto.
  destruct (router_inv P okstep c srt VS DT PT HL tol K acc (Nat.min ws0 p) me (Nat.le_min_r _ _) more _ _ st' E') as (H1 & _). destruct st; exact H1.
Qed.
Lemma solve_final tol K acc ws0 me it more st : rsolve P srt (Fin tol) K acc ws0 me it = Ret st -> done P tol st ->
  rsolve P srt (Fin tol) K acc ws0 me (it + more) = Ret st.
Proof. intros E Hd. unfold rsolve in *. rewrite router_add, E. cbn [bind]. apply done_stops; auto. Qed.

Hypotheses (ST : score_theory T (ppv P) (pdist P))
  (HH : exists H, 0 <= H /\ forall Z j k d, (j < p)%nat -> (k < p)%nat -> norm2 (vminus (row P (pg P (shift (pX P) Z j d)) k) (row P (pg P Z) k)) <= H * norm2 (tab T d))
  (HK : forall j, (j < p)%nat -> live P j -> 0 < c (1 / pL P j))
  (HM : forall j, (j < p)%nat -> live P j -> exists M, zero_moves T (pprox P) (pdist P) (pL P j) M).
Lemma solve_conv tol K acc ws0 me : 0 < tol -> (1 <= ws0)%nat -> (1 <= me)%nat -> calm acc K (seq 0 me) -> accel_safe acc K (Nat.min ws0 p * T) me ->
  exists N st, done P tol st /\ forall m, (N <= m)%nat -> rsolve P srt (Fin tol) K acc ws0 me m = Ret st.
Proof.
  intros Ht Hw Hme Hcalm Hsafe. destruct (Nat.eq_dec p 0) as [E0|E0].
  { exists 0%nat, (fun _ _ => 0, fun _ _ => 0). assert (Hd : done P tol (fun _ _ => 0, fun _ _ => 0)) by (intros j Hj; lia).
    split; auto. intros m _. apply (done_stops P srt tol K acc (Nat.min ws0 p) me (fun _ _ => 0, fun _ _ => 0)); auto. }
  destruct HH as (H & H0 & HHb).
  destruct (finite_lower p (live P) (kap P c)) as (k0 & Hk0 & HKb).
  { intros j Hj Hl. unfold kap. pose proof (da_L P DT j). unfold live in Hl. specialize (HK j Hj Hl). assert (0 < c (1 / pL P j) * pL P j) by (apply Rmult_lt_0_compat; lra). lra. }
  destruct (finite_upper p (fun j b => pL P j <= b /\ (live P j -> zero_moves T (pprox P) (pdist P) (pL P j) b))) as (B' & HB0' & HB').
  { intros j b b' Hj [Q1 Q2] Hb. split; [lra|]. intros Hl g Hg. apply Rle_trans with (1 := Q2 Hl g Hg). apply Rmult_le_compat_r; auto. apply norm2_pos. }
  { intros j Hj. destruct (Req_dec (pL P j) 0) as [E|E]; [exists 0; split; [lra|intros Hl; contradiction]|]. destruct (HM j Hj E) as (M & Q). exists (Rmax (pL P j) M). split; [apply Rmax_l|].
    intros _ g Hg. apply Rle_trans with (1 := Q g Hg). apply Rmult_le_compat_r; [apply norm2_pos|apply Rmax_r]. }
  assert (HW : (1 <= Nat.min ws0 p <= p)%nat) by lia.
  destruct (bound_up P (pdist P) B' HB0' HB') as (B & HB0 & HB).
  set (st0 := (fun _ _ => 0, fun _ _ => 0) : rmat * rmat).
  pose proof (delta_pos P H B k0 H0 HB0 Hk0 tol Ht) as Hdel. set (dl := delta P H B k0 tol) in *.
  destruct (INR_above ((obj P st0 + obj P st0) / dl)) as (N & HN).
  assert (Hset : settled P H B k0 tol (obj P st0) st0).
  { split; [intros ? ? ? ? ?; reflexivity|]. split; [lra|]. intros _ j Hj Hnz. apply nz_row_true in Hnz. exfalso. apply Hnz. apply tab_zero. reflexivity. }
  destruct (conv_within P okstep c srt VS DT PT ST HL H B k0 H0 HB0 Hk0 HHb HKb (fun j Hj => proj1 (HB j Hj)) (fun j g Hj Hl Hg => proj2 (HB j Hj) Hl g Hg)
    tol K acc (Nat.min ws0 p) me Ht HW Hme Hcalm Hsafe N (obj P st0) st0 Hset) as (m & st' & _ & Hd & Hall).
  - fold dl. apply Rmult_lt_reg_r with (/ dl); [apply Rinv_0_lt_compat; auto|]. rewrite Rmult_assoc, Rinv_r, Rmult_1_r by lra. exact HN.
  - exists m, st'. split; auto.
Qed.
End Solve.
