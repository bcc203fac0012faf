(** Real vectors as lists: inner product, norm, Cauchy-Schwarz; link with the XR reductions. *)
From Coq Require Import List ZArith Bool Arith Reals Lra Lia Psatz.
From Verif Require Import Ops Arr XR SpecPen.
Import ListNotations.
Open Scope R_scope.

Lemma dotp_sym a : forall b, dotp a b = dotp b a.
Proof. induction a as [|x a IH]; intros [|y b]; simpl; auto. rewrite IH. ring. Qed.
Lemma dotp_pos a : 0 <= dotp a a.
Proof. induction a as [|x a IH]; simpl; nra. Qed.
Lemma dotp_scale_l c a : forall b, dotp (vscale c a) b = c * dotp a b.
Proof. unfold vscale. induction a as [|x a IH]; intros [|y b]; simpl; try ring. rewrite IH. ring. Qed.
Lemma dotp_scale_r c a b : dotp a (vscale c b) = c * dotp a b.
Proof. rewrite dotp_sym, dotp_scale_l, dotp_sym. reflexivity. Qed.
Lemma dotp_minus_l a : forall b c, length a = length b ->
  dotp (vminus a b) c = dotp a c - dotp b c.
Proof.
  induction a as [|x a IH]; intros [|y b] c H; simpl in *; try discriminate; try ring.
  destruct c as [|z c]; simpl; try ring. rewrite IH by lia. ring.
Qed.
Lemma vminus_length a : forall b, length a = length b -> length (vminus a b) = length a.
Proof. induction a as [|x a IH]; intros [|y b] H; simpl in *; try discriminate; auto. Qed.
Lemma dotp_minus_r a b c : length b = length c -> dotp a (vminus b c) = dotp a b - dotp a c.
Proof. intros H. rewrite dotp_sym, dotp_minus_l by auto. rewrite (dotp_sym b), (dotp_sym c). ring. Qed.
Lemma vscale_length c a : length (vscale c a) = length a.
Proof. unfold vscale. apply map_length. Qed.

Lemma norm2_pos a : 0 <= norm2 a.
Proof. apply sqrt_pos. Qed.
Lemma norm2_sq a : norm2 a ^ 2 = dotp a a.
Proof. unfold norm2. apply pow2_sqrt, dotp_pos. Qed.
Lemma norm2_minus_sq a b : length a = length b ->
  norm2 (vminus a b) ^ 2 = dotp a a - 2 * dotp a b + dotp b b.
Proof.
  intros H. rewrite norm2_sq, dotp_minus_l, !dotp_minus_r by auto.
  rewrite (dotp_sym b a). ring.
Qed.

Lemma cs_sq a : forall b, dotp a b ^ 2 <= dotp a a * dotp b b.
Proof.
  induction a as [|x a IH]; intros [|y b]; simpl; try (pose proof (dotp_pos b); nra); try nra.
  specialize (IH b). pose proof (dotp_pos a) as HA. pose proof (dotp_pos b) as HB.
  set (A := dotp a a) in *. set (B := dotp b b) in *. set (D := dotp a b) in *.
  assert (H : 2 * (x * y) * D <= x ^ 2 * B + y ^ 2 * A).
  { destruct (Rle_dec (2 * (x * y) * D) 0); [nra|].
    apply Rsqr_incr_0_var; [|nra]. unfold Rsqr.
    assert (4 * (x * y) ^ 2 * D ^ 2 <= 4 * (x * y) ^ 2 * (A * B)).
    { apply Rmult_le_compat_l; [|lra]. assert (0 <= (x*y)^2) by apply pow2_ge_0. lra. }
    assert (0 <= (x ^ 2 * B - y ^ 2 * A) ^ 2) by apply pow2_ge_0.
    nra. }
  nra.
Qed.
Lemma cauchy_schwarz a b : dotp a b <= norm2 a * norm2 b.
Proof.
  pose proof (cs_sq a b) as H. pose proof (norm2_pos a). pose proof (norm2_pos b).
  destruct (Rle_dec (dotp a b) 0); [nra|].
  apply Rsqr_incr_0_var; [|nra]. unfold Rsqr. rewrite <- (norm2_sq a), <- (norm2_sq b) in H. nra.
Qed.
Lemma norm2_scale c a : norm2 (vscale c a) = Rabs c * norm2 a.
Proof.
  unfold norm2. rewrite dotp_scale_l, dotp_scale_r.
  replace (c * (c * dotp a a)) with (c ^ 2 * dotp a a) by ring.
  rewrite sqrt_mult; [|apply pow2_ge_0|apply dotp_pos].
  rewrite <- (pow2_abs c), sqrt_pow2 by apply Rabs_pos. reflexivity.
Qed.
Lemma norm2_triang a b : length a = length b -> norm2 a <= norm2 b + norm2 (vminus a b).
Proof.
  intros H. apply Rsqr_incr_0_var; [|pose proof (norm2_pos b); pose proof (norm2_pos (vminus a b)); lra].
  unfold Rsqr.
  pose proof (cauchy_schwarz b (vminus a b)) as CS.
  rewrite dotp_minus_r in CS by auto.
  pose proof (norm2_minus_sq a b H). pose proof (norm2_sq a). pose proof (norm2_sq b).
  rewrite (dotp_sym b a) in CS. nra.
Qed.
Lemma norm2_0 n : norm2 (repeat 0 n) = 0.
Proof.
  unfold norm2. replace (dotp (repeat 0 n) (repeat 0 n)) with 0; [apply sqrt_0|].
  induction n; simpl; lra.
Qed.
Lemma dotp_0_l n b : dotp (repeat 0 n) b = 0.
Proof. revert b. induction n; intros [|y b]; simpl; try ring. rewrite IHn. ring. Qed.
Lemma dotp_0_r n b : dotp b (repeat 0 n) = 0.
Proof. rewrite dotp_sym. apply dotp_0_l. Qed.
Lemma dotp_self_0 a : dotp a a = 0 -> a = repeat 0 (length a).
Proof.
  induction a as [|x a IH]; simpl; auto. intros H. pose proof (dotp_pos a).
  f_equal; [nra|apply IH; nra].
Qed.
Lemma norm2_0_inv a : norm2 a = 0 -> a = repeat 0 (length a).
Proof. intros H. apply dotp_self_0. rewrite <- norm2_sq, H. ring. Qed.

(** *** link with the XR model *)
Lemma Rdot_dotp a : forall b, Rdot a b = dotp a b.
Proof.
  unfold Rdot, map2. induction a as [|x a IH]; intros [|y b]; simpl; auto. rewrite <- IH. reflexivity.
Qed.
Lemma xdot_dotp a b : xdot (map Fin a) (map Fin b) = Fin (dotp a b).
Proof. rewrite xdot_fin, Rdot_dotp. reflexivity. Qed.
Lemma Rsum_sq a : Rsum (map (fun x => x * x) a) = dotp a a.
Proof. induction a as [|x a IH]; simpl; auto. rewrite <- IH. reflexivity. Qed.
Lemma xsum_sq a : xsum (map (sq xops) (map Fin a)) = Fin (dotp a a).
Proof.
  rewrite map_map. rewrite (map_ext _ (fun x => Fin (x * x))) by reflexivity.
  rewrite <- map_map with (f := fun x => x * x). rewrite xsum_fin, Rsum_sq. reflexivity.
Qed.
Lemma xsqrt_norm a : xsqrt (Fin (dotp a a)) = Fin (norm2 a).
Proof. apply xsqrt_fin, dotp_pos. Qed.

(** radial functions: a scalar strong minimum along the ray gives the vector one *)
Lemma radial_min n c phi v rho :
  length v = n -> 0 <= rho -> 0 < norm2 v -> c * rho <= norm2 v ->
  (forall x, 0 <= x -> (rho - norm2 v) ^ 2 / 2 + phi rho + c / 2 * (x - rho) ^ 2
                       <= (x - norm2 v) ^ 2 / 2 + phi x) ->
  vstrong_min n c (vprox_obj phi v) (vscale (rho / norm2 v) v).
Proof.
  intros Hn Hrho Hv Hc Hs. split; [rewrite vscale_length; auto|].
  intros x Hx. unfold vprox_obj. set (r := norm2 v) in *.
  assert (Hrr : 0 <= rho / r) by (apply Rmult_le_pos; auto; left; apply Rinv_0_lt_compat; auto).
  rewrite norm2_scale, (Rabs_right (rho / r)) by lra. fold r.
  replace (rho / r * r) with rho by (field; lra).
  rewrite !norm2_minus_sq by (rewrite ?vscale_length; lia).
  rewrite !dotp_scale_l, !dotp_scale_r, <- (norm2_sq v), <- (norm2_sq x). fold r.
  specialize (Hs (norm2 x) (norm2_pos x)).
  pose proof (cauchy_schwarz x v) as CS. fold r in CS.
  set (X := norm2 x) in *. set (D := dotp x v) in *.
  assert (E : c * (rho / r) <= 1).
  { apply Rmult_le_reg_r with r; auto. replace (c * (rho / r) * r) with (c * rho) by (field; lra). lra. }
  assert (0 <= (X * r - D) * (1 - c * (rho / r))) by (apply Rmult_le_pos; lra).
  replace (rho / r * (rho / r * r ^ 2)) with (rho ^ 2) by (field; lra).
  replace (rho / r * r ^ 2) with (rho * r) by (field; lra).
  replace (c / 2 * (X ^ 2 - 2 * (rho / r * D) + rho ^ 2))
    with (c / 2 * (X - rho) ^ 2 + (c * (rho / r)) * (X * r - D)) by (field; lra).
  nra.
Qed.
