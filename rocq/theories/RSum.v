(** Finite sums of reals over an index range. *)
From Coq Require Import List Arith Lia Reals Lra Psatz Permutation.
From Verif Require Import Ops Arr PBase XR.
Import ListNotations.
Open Scope R_scope.

Definition Sum (n : nat) (f : nat -> R) : R := Rsum (tab n f).

Lemma Rsum_app a b : Rsum (a ++ b) = Rsum a + Rsum b.
Proof. unfold Rsum. induction a; simpl; lra. Qed.
Lemma Sum_0 f : Sum 0 f = 0.
Proof. reflexivity. Qed.
Lemma Sum_S n f : Sum (S n) f = Sum n f + f n.
Proof. unfold Sum. rewrite tab_S, Rsum_app. simpl. lra. Qed.
Lemma Sum_ext n f g : (forall i, (i < n)%nat -> f i = g i) -> Sum n f = Sum n g.
Proof. intros H. unfold Sum. rewrite (tab_ext _ f g); auto. Qed.
Lemma Sum_plus n f g : Sum n (fun i => f i + g i) = Sum n f + Sum n g.
Proof. induction n; rewrite ?Sum_S, ?Sum_0; [lra|]. rewrite IHn. lra. Qed.
Lemma Sum_minus n f g : Sum n (fun i => f i - g i) = Sum n f - Sum n g.
Proof. induction n; rewrite ?Sum_S, ?Sum_0; [lra|]. rewrite IHn. lra. Qed.
Lemma Sum_scal n c f : Sum n (fun i => c * f i) = c * Sum n f.
Proof. induction n; rewrite ?Sum_S, ?Sum_0; [lra|]. rewrite IHn. lra. Qed.
Lemma Sum_scal_r n c f : Sum n (fun i => f i * c) = Sum n f * c.
Proof. induction n; rewrite ?Sum_S, ?Sum_0; [lra|]. rewrite IHn. lra. Qed.
Lemma Sum_div n c f : Sum n (fun i => f i / c) = Sum n f / c.
Proof. unfold Rdiv. apply Sum_scal_r. Qed.
Lemma Sum_opp n f : Sum n (fun i => - f i) = - Sum n f.
Proof. induction n; rewrite ?Sum_S, ?Sum_0; [lra|]. rewrite IHn. lra. Qed.
Lemma Sum_zero n f : (forall i, (i < n)%nat -> f i = 0) -> Sum n f = 0.
Proof. induction n; intros H; rewrite ?Sum_S, ?Sum_0; [lra|]. rewrite IHn, H by auto. lra. Qed.
Lemma Sum_const n c : Sum n (fun _ => c) = INR n * c.
Proof. induction n; rewrite ?Sum_S, ?Sum_0; [simpl; lra|]. rewrite IHn, S_INR. lra. Qed.
Lemma Sum_le n f g : (forall i, (i < n)%nat -> f i <= g i) -> Sum n f <= Sum n g.
Proof.
  induction n; intros H; rewrite ?Sum_S, ?Sum_0; [lra|].
  specialize (IHn ltac:(intros; apply H; lia)). specialize (H n ltac:(lia)). lra.
Qed.
Lemma Sum_nonneg n f : (forall i, (i < n)%nat -> 0 <= f i) -> 0 <= Sum n f.
Proof. intros H. rewrite <- (Sum_zero n (fun _ => 0)) by auto. apply Sum_le; auto. Qed.
Lemma Sum_pos n f i : (forall i, (i < n)%nat -> 0 <= f i) -> (i < n)%nat -> 0 < f i -> 0 < Sum n f.
Proof.
  induction n; intros H Hi Hp; [lia|]. rewrite Sum_S.
  destruct (Nat.eq_dec i n) as [->|Hn].
  - assert (0 <= Sum n f) by (apply Sum_nonneg; auto). lra.
  - assert (0 < Sum n f) by (apply IHn; auto; lia). specialize (H n ltac:(lia)). lra.
Qed.
Lemma Sum_nonneg_zero n f : (forall i, (i < n)%nat -> 0 <= f i) -> Sum n f = 0 ->
  forall i, (i < n)%nat -> f i = 0.
Proof.
  intros H E i Hi. destruct (Rle_lt_or_eq_dec 0 (f i)) as [Hp|]; auto.
  assert (0 < Sum n f) by (eapply Sum_pos; eauto). lra.
Qed.
Lemma Sum_ge_term n f i : (forall i, (i < n)%nat -> 0 <= f i) -> (i < n)%nat -> f i <= Sum n f.
Proof.
  induction n; intros H Hi; [lia|]. rewrite Sum_S. destruct (Nat.eq_dec i n) as [->|Hn].
  - assert (0 <= Sum n f) by (apply Sum_nonneg; auto). lra.
  - specialize (IHn ltac:(auto) ltac:(lia)). specialize (H n ltac:(lia)). lra.
Qed.
Lemma Sum_swap n m f : Sum n (fun i => Sum m (f i)) = Sum m (fun j => Sum n (fun i => f i j)).
Proof.
  induction n; rewrite ?Sum_S, ?Sum_0.
  - symmetry. apply Sum_zero. auto.
  - rewrite IHn, <- Sum_plus. apply Sum_ext. intros. rewrite Sum_S. reflexivity.
Qed.
(** only index [k] contributes *)
Lemma Sum_single n f k : (k < n)%nat -> (forall i, (i < n)%nat -> i <> k -> f i = 0) -> Sum n f = f k.
Proof.
  induction n; intros Hk H; [lia|]. rewrite Sum_S. destruct (Nat.eq_dec k n) as [->|Hn].
  - rewrite Sum_zero; [lra|]. intros; apply H; lia.
  - rewrite IHn, (H n); try lia; [lra|]. intros; apply H; lia.
Qed.
Lemma Sum_upd n f g k : (k < n)%nat -> (forall i, (i < n)%nat -> i <> k -> f i = g i) ->
  Sum n f = Sum n g + (f k - g k).
Proof.
  intros Hk H. assert (Sum n (fun i => f i - g i) = f k - g k).
  { apply (Sum_single n (fun i => f i - g i) k); auto. intros. rewrite H; auto. lra. }
  rewrite Sum_minus in H0. lra.
Qed.
Lemma Rsum_perm a b : Permutation a b -> Rsum a = Rsum b.
Proof. induction 1; simpl; unfold Rsum in *; simpl in *; lra. Qed.
Lemma Sum_perm n s f : Permutation s (seq 0 n) -> Rsum (map f s) = Sum n f.
Proof. intros H. apply Rsum_perm. unfold tab. apply Permutation_map. auto. Qed.
Lemma Rabs_Sum n f : Rabs (Sum n f) <= Sum n (fun i => Rabs (f i)).
Proof.
  induction n; rewrite ?Sum_S, ?Sum_0; [rewrite Rabs_R0; lra|].
  eapply Rle_trans; [apply Rabs_triang|]. lra.
Qed.
(** Cauchy-Schwarz *)
Lemma Sum_CS n f g : (Sum n (fun i => f i * g i))^2 <= Sum n (fun i => (f i)^2) * Sum n (fun i => (g i)^2).
Proof.
  induction n; rewrite ?Sum_S, ?Sum_0; [lra|].
  set (a := Sum n (fun i => (f i)^2)) in *. set (b := Sum n (fun i => (g i)^2)) in *.
  set (c := Sum n (fun i => f i * g i)) in *.
  assert (Ha : 0 <= a) by (apply Sum_nonneg; intros; apply pow2_ge_0).
  assert (Hb : 0 <= b) by (apply Sum_nonneg; intros; apply pow2_ge_0).
  set (x := f n). set (y := g n).
  (* 2cxy <= a y^2 + b x^2 *)
  assert (H : 2 * c * (x * y) <= a * y^2 + b * x^2).
  { assert (Hc : Rabs c <= sqrt a * sqrt b).
    { rewrite <- sqrt_mult by auto. rewrite <- sqrt_Rsqr_abs. apply sqrt_le_1_alt. unfold Rsqr. simpl in IHn. lra. }
    assert (2 * c * (x * y) <= 2 * (sqrt a * sqrt b) * Rabs (x * y)).
    { assert (c * (x * y) <= Rabs c * Rabs (x * y)) by (rewrite <- Rabs_mult; apply Rle_abs).
      assert (Rabs c * Rabs (x * y) <= sqrt a * sqrt b * Rabs (x * y))
        by (apply Rmult_le_compat_r; auto; apply Rabs_pos). lra. }
    rewrite Rabs_mult in H.
    assert (S1 : sqrt a * sqrt a = a) by (apply sqrt_def; auto).
    assert (S2 : sqrt b * sqrt b = b) by (apply sqrt_def; auto).
    assert (0 <= (sqrt a * Rabs y - sqrt b * Rabs x)^2) by apply pow2_ge_0.
    assert (X2 : Rabs x * Rabs x = x^2) by (rewrite <- Rabs_mult, Rabs_pos_eq; [ring|apply Rle_0_sqr]).
    assert (Y2 : Rabs y * Rabs y = y^2) by (rewrite <- Rabs_mult, Rabs_pos_eq; [ring|apply Rle_0_sqr]).
    assert (E : (sqrt a * Rabs y - sqrt b * Rabs x)^2
              = (sqrt a * sqrt a) * (Rabs y * Rabs y) + (sqrt b * sqrt b) * (Rabs x * Rabs x)
                - 2 * (sqrt a * sqrt b) * (Rabs x * Rabs y)) by ring.
    rewrite S1, S2, X2, Y2 in E. lra. }
  replace ((c + x*y)^2) with (c^2 + 2*c*(x*y) + x^2*y^2) by ring.
  replace ((a + x^2)*(b+y^2)) with (a*b + (a*y^2 + b * x^2) + x^2*y^2) by ring. lra.
Qed.
(** sums over lists of finite values *)
Lemma Rsum_map_nth {A} (g : A -> R) (l : list A) d : Rsum (map g l) = Sum (length l) (fun i => g (nth i l d)).
Proof. unfold Sum. rewrite <- (map_seq_nth g l d). reflexivity. Qed.
Lemma Rdot_tab n f g : Rdot (tab n f) (tab n g) = Sum n (fun i => f i * g i).
Proof. unfold Rdot. rewrite map2_tab. reflexivity. Qed.
Lemma xsum_tab n f : xsum (tab n (fun i => Fin (f i))) = Fin (Sum n f).
Proof. rewrite <- (map_tab Fin n f). apply xsum_fin. Qed.
Lemma xdot_tab n f g : xdot (tab n (fun i => Fin (f i))) (tab n (fun i => Fin (g i))) = Fin (Sum n (fun i => f i * g i)).
Proof. rewrite <- (map_tab Fin n f), <- (map_tab Fin n g), xdot_fin, Rdot_tab. reflexivity. Qed.
Lemma Sum_add n m f : Sum (n + m) f = Sum n f + Sum m (fun i => f (n + i)%nat).
Proof.
  induction m; [rewrite Nat.add_0_r, Sum_0; lra|]. rewrite Nat.add_succ_r, !Sum_S, IHm. lra.
Qed.
