(** Proofs: the L0.5 proximal operator. *)
From Coq Require Import List ZArith Bool Arith Reals Lra Lia Psatz.
From Verif Require Import Ops Arr XR SpecPen MUtils MPenalties.
Import ListNotations.
Open Scope R_scope.

(** quartic gap when [w] is a large enough stationary point of [(w^2-v)^2/2 + t w] *)
Lemma quartic_gap v t w x : 0 <= w -> 0 <= x -> w ^ 3 = v * w - t / 2 -> 2 * v / 3 <= w ^ 2 ->
  (w ^ 2 - v) ^ 2 / 2 + t * w <= (x ^ 2 - v) ^ 2 / 2 + t * x.
Proof.
  intros Hw Hx Hst Hlarge.
  assert (E : t = 2 * v * w - 2 * w ^ 3) by lra.
  assert (I : (x ^ 2 - v) ^ 2 / 2 + t * x - ((w ^ 2 - v) ^ 2 / 2 + t * w)
              = (x - w) ^ 2 * ((x ^ 2 + 2 * x * w + 3 * w ^ 2) / 2 - v)) by (subst t; field).
  assert (0 <= (x - w) ^ 2 * ((x ^ 2 + 2 * x * w + 3 * w ^ 2) / 2 - v)).
  { apply Rmult_le_pos; [apply pow2_ge_0|]. nra. }
  lra.
Qed.

Lemma quartic_zero v q x : 0 <= q -> 0 <= x -> v <= 3 / 2 * q ^ 2 ->
  v ^ 2 / 2 <= (x ^ 2 - v) ^ 2 / 2 + q ^ 3 * x.
Proof.
  intros Hq Hx Hv.
  assert (I : (x ^ 2 - v) ^ 2 / 2 + q ^ 3 * x - v ^ 2 / 2
              = x * ((x - q) ^ 2 * (x + 2 * q) / 2 + x * (3 / 2 * q ^ 2 - v))) by field.
  assert (0 <= x * ((x - q) ^ 2 * (x + 2 * q) / 2 + x * (3 / 2 * q ^ 2 - v))).
  { apply Rmult_le_pos; auto. apply Rplus_le_le_0_compat.
    - assert (0 <= (x - q) ^ 2 * (x + 2 * q)) by (apply Rmult_le_pos; [apply pow2_ge_0|lra]). lra.
    - apply Rmult_le_pos; lra. }
  lra.
Qed.

(** from the quartic back to the penalised objective *)
Definition h05 (t v u : R) : R := (u - v) ^ 2 / 2 + t * sqrt (Rabs u).

Lemma h05_lower t v u : 0 <= t -> h05 t (Rabs v) (Rabs u) <= h05 t v u.
Proof.
  intros Ht. unfold h05. rewrite Rabs_Rabsolu.
  assert ((Rabs u - Rabs v) ^ 2 <= (u - v) ^ 2); [|lra].
  rewrite <- (pow2_abs (u - v)). rewrite <- (pow2_abs (Rabs u - Rabs v)).
  apply pow_incr. split; [apply Rabs_pos|apply Rabs_triang_inv2].
Qed.

Lemma h05_sqrt t v u : 0 <= u -> h05 t v u = ((sqrt u) ^ 2 - v) ^ 2 / 2 + t * sqrt u.
Proof.
  intros Hu. unfold h05. rewrite (Rabs_right u) by lra. rewrite pow2_sqrt by auto. reflexivity.
Qed.

(** the closed form, as the code evaluates it *)
Definition r05 (t v : R) : R :=
  if Rltb (Rabs v) (3 / 2 * Rpower t (2 / 3)) then 0
  else v * (2 / 3) *
       (1 + cos (2 / 3 * acos (- (Rpower (INR 3) (3 / 2) / INR 4) * t * Rpower (Rabs v) (-3 / 2)))).

Lemma Rpower_third t : 0 < t -> exists q, 0 < q /\ q ^ 3 = t /\ Rpower t (2 / 3) = q ^ 2.
Proof.
  intros Ht. exists (Rpower t (1 / 3)).
  assert (H0 : 0 < Rpower t (1 / 3)) by (unfold Rpower; apply exp_pos).
  repeat split; auto.
  - rewrite <- Rpower_pow by auto. rewrite Rpower_mult.
    replace (1 / 3 * INR 3) with 1 by (simpl; field). apply Rpower_1; auto.
  - rewrite <- Rpower_pow by auto. rewrite Rpower_mult. f_equal. simpl. field.
Qed.

Lemma Rpower_32 v : 0 < v -> Rpower v (3 / 2) = v * sqrt v.
Proof.
  intros Hv. replace (3 / 2) with (1 + / 2) by field.
  rewrite Rpower_plus, Rpower_1, Rpower_sqrt by auto. reflexivity.
Qed.
Lemma Rpower_m32 v : 0 < v -> Rpower v (-3 / 2) = / (v * sqrt v).
Proof.
  intros Hv. replace (-3 / 2) with (- (3 / 2)) by field.
  rewrite Rpower_Ropp, Rpower_32 by auto. reflexivity.
Qed.
Lemma Rpower_3_32 : Rpower (INR 3) (3 / 2) = 3 * sqrt 3.
Proof. replace (INR 3) with 3 by (simpl; lra). apply Rpower_32. lra. Qed.

(** facts about the trigonometric root *)
Lemma trig_root t v : 0 < t -> 3 / 2 * Rpower t (2 / 3) <= v ->
  let c := - (Rpower (INR 3) (3 / 2) / INR 4) * t * Rpower v (-3 / 2) in
  0 < v /\ -1 <= c <= 1 /\
  exists w, 0 <= w /\ w ^ 3 = v * w - t / 2 /\ 2 * v / 3 <= w ^ 2 /\
            w ^ 2 = v * (2 / 3) * (1 + cos (2 / 3 * acos c)).
Proof.
  intros Ht Hv c. destruct (Rpower_third t Ht) as (q & Hq & Hq3 & Hq2).
  rewrite Hq2 in Hv.
  assert (Hv0 : 0 < v) by nra.
  assert (Hc : c = - (3 * sqrt 3 / 4) * t / (v * sqrt v)).
  { unfold c. rewrite Rpower_m32, Rpower_3_32 by auto. simpl (INR 4). field.
    split; [|lra]. apply Rgt_not_eq, sqrt_lt_R0; auto. }
  assert (Hsv : 0 < sqrt v) by (apply sqrt_lt_R0; auto).
  assert (Hs3 : 0 < sqrt 3) by (apply sqrt_lt_R0; lra).
  assert (Hsv2 : sqrt v * sqrt v = v) by (apply sqrt_sqrt; lra).
  assert (Hs32 : sqrt 3 * sqrt 3 = 3) by (apply sqrt_sqrt; lra).
  (* c^2 <= 1/2 *)
  assert (Hc2 : c ^ 2 <= 1 / 2).
  { rewrite Hc.
    replace ((- (3 * sqrt 3 / 4) * t / (v * sqrt v)) ^ 2)
      with ((9 * (sqrt 3 * sqrt 3) / 16) * t ^ 2 / (v ^ 2 * (sqrt v * sqrt v))) by (field; split; lra).
    rewrite Hs32, Hsv2. subst t.
    apply Rmult_le_reg_r with (v ^ 2 * v); [apply Rmult_lt_0_compat; nra|].
    replace (9 * 3 / 16 * (q ^ 3) ^ 2 / (v ^ 2 * v) * (v ^ 2 * v)) with (27 / 16 * (q ^ 2) ^ 3) by (field; lra).
    assert ((3 / 2 * q ^ 2) ^ 3 <= v ^ 3) by (apply pow_incr; split; [nra|auto]).
    nra. }
  assert (Hcneg : c <= 0).
  { rewrite Hc. assert (0 < / (v * sqrt v)) by (apply Rinv_0_lt_compat; nra).
    unfold Rdiv at 1. assert (0 < 3 * sqrt 3 / 4 * t) by (apply Rmult_lt_0_compat; lra). nra. }
  assert (Hcb : -1 <= c <= 1) by (split; nra).
  split; [auto|split;[auto|]].
  set (th := acos c).
  assert (Hth : cos th = c) by (apply cos_acos; lra).
  assert (Hthb : 0 <= th <= PI) by (apply acos_bound).
  (* th <= 3 PI / 4 *)
  assert (Hth2 : th <= 3 * (PI / 4)).
  { apply Rnot_lt_le. intro Hlt.
    assert (cos th < cos (3 * (PI / 4))).
    { apply cos_decreasing_1; try lra; pose proof PI_RGT_0; lra. }
    rewrite Hth in H. rewrite cos_3PI4 in H.
    assert (sqrt 2 * sqrt 2 = 2) by (apply sqrt_sqrt; lra).
    assert (0 < sqrt 2) by (apply sqrt_lt_R0; lra).
    assert (Hb : (-1 / sqrt 2) ^ 2 = 1 / 2).
    { replace ((-1 / sqrt 2) ^ 2) with (1 / (sqrt 2 * sqrt 2)) by (field; lra). rewrite H0. field. }
    assert (-1 / sqrt 2 < 0).
    { unfold Rdiv. assert (0 < / sqrt 2) by (apply Rinv_0_lt_compat; lra). lra. }
    nra. }
  set (k := cos (th / 3)).
  assert (Hk : sqrt 2 / 2 <= k).
  { unfold k. replace (sqrt 2 / 2) with (cos (PI / 4)).
    - destruct (Rle_lt_or_eq_dec (th / 3) (PI / 4)) as [H|H]; [lra| |rewrite H; lra].
      left. apply cos_decreasing_1; pose proof PI_RGT_0; lra.
    - rewrite cos_PI4. assert (0 < sqrt 2) by (apply sqrt_lt_R0; lra).
      assert (E2 : sqrt 2 * sqrt 2 = 2) by (apply sqrt_sqrt; lra).
      apply Rmult_eq_reg_r with (2 * sqrt 2); [|nra].
      replace (1 / sqrt 2 * (2 * sqrt 2)) with 2 by (field; lra).
      replace (sqrt 2 / 2 * (2 * sqrt 2)) with (sqrt 2 * sqrt 2) by field. lra. }
  assert (Hk2 : 1 / 2 <= k ^ 2).
  { assert (0 < sqrt 2) by (apply sqrt_lt_R0; lra).
    assert (E2 : sqrt 2 * sqrt 2 = 2) by (apply sqrt_sqrt; lra). nra. }
  assert (Hk0 : 0 < k).
  { assert (0 < sqrt 2) by (apply sqrt_lt_R0; lra). lra. }
  assert (Htriple : c = 4 * k ^ 3 - 3 * k).
  { rewrite <- Hth. replace th with (th / 3 + 2 * (th / 3)) at 1 by field.
    rewrite cos_plus, cos_2a_cos, sin_2a. fold k.
    assert (S2 : sin (th / 3) * sin (th / 3) = 1 - k * k).
    { pose proof (sin2_cos2 (th / 3)) as HH. unfold Rsqr in HH. fold k in HH. lra. }
    replace (k * (2 * k * k - 1) - sin (th / 3) * (2 * sin (th / 3) * k))
      with (k * (2 * k * k - 1) - 2 * k * (sin (th / 3) * sin (th / 3))) by ring.
    rewrite S2. ring. }
  exists (2 * (sqrt v / sqrt 3) * k).
  assert (Hw2 : (2 * (sqrt v / sqrt 3) * k) ^ 2 = 4 * v / 3 * k ^ 2).
  { replace ((2 * (sqrt v / sqrt 3) * k) ^ 2)
      with (4 * (sqrt v * sqrt v) / (sqrt 3 * sqrt 3) * k ^ 2) by (field; lra).
    rewrite Hsv2, Hs32. field. }
  repeat split.
  - apply Rmult_le_pos; [|lra]. apply Rmult_le_pos; [lra|].
    apply Rmult_le_pos; [lra|]. left. apply Rinv_0_lt_compat; lra.
  - (* cubic equation *)
    replace ((2 * (sqrt v / sqrt 3) * k) ^ 3)
      with ((2 * (sqrt v / sqrt 3) * k) ^ 2 * (2 * (sqrt v / sqrt 3) * k)) by ring.
    rewrite Hw2.
    assert (Ht2 : t / 2 = - c * (2 * v * sqrt v) / (3 * sqrt 3)).
    { rewrite Hc. field. repeat split; lra. }
    rewrite Ht2, Htriple. field. lra.
  - rewrite Hw2. nra.
  - rewrite Hw2. fold th. replace (2 / 3 * th) with (2 * (th / 3)) by field.
    rewrite cos_2a_cos. fold k. field.
Qed.

Lemma r05_min t v : 0 < t -> forall x, h05 t v (r05 t v) <= h05 t v x.
Proof.
  intros Ht x. apply Rle_trans with (h05 t (Rabs v) (Rabs x)); [|apply h05_lower; lra].
  rewrite (h05_sqrt t (Rabs v) (Rabs x)) by apply Rabs_pos.
  unfold r05. destruct (Rltb _ _) eqn:E; rb.
  - destruct (Rpower_third t Ht) as (q & Hq & Hq3 & Hq2). rewrite Hq2 in E.
    pose proof (quartic_zero (Rabs v) q (sqrt (Rabs x)) ltac:(lra) (sqrt_pos _) ltac:(lra)) as H.
    rewrite Hq3 in H. unfold h05. rewrite Rabs_R0, sqrt_0.
    rewrite pow2_abs in H. replace ((0 - v) ^ 2) with (v ^ 2) by ring. lra.
  - destruct (trig_root t (Rabs v) Ht E) as (Hv0 & Hc & w & Hw0 & Hw3 & Hwl & Hw2).
    set (cc := 1 + cos _) in *.
    assert (Hsg : exists sg, sg * sg = 1 /\ v = sg * Rabs v).
    { destruct (Rcase_abs v) as [H|H]; [exists (-1)|exists 1]; split; try lra.
      - rewrite Rabs_left; lra. - rewrite Rabs_right; lra. }
    destruct Hsg as (sg & Hs2 & Hsv).
    assert (Er : v * (2 / 3) * cc = sg * w ^ 2) by (rewrite Hw2, Hsv at 1; ring).
    rewrite Er.
    assert (Habs : Rabs (sg * w ^ 2) = w ^ 2).
    { rewrite Rabs_mult, (Rabs_right (w ^ 2)) by (apply Rle_ge, pow2_ge_0).
      assert (Rabs sg = 1); [|rewrite H; ring].
      pose proof (Rabs_pos sg). assert (Rabs sg * Rabs sg = 1); [|nra].
      rewrite <- Rabs_mult, Hs2. apply Rabs_R1. }
    assert (E1 : h05 t v (sg * w ^ 2) = (w ^ 2 - Rabs v) ^ 2 / 2 + t * w).
    { unfold h05. rewrite Habs. rewrite sqrt_pow2 by auto.
      assert (E1 : (sg * w ^ 2 - v) ^ 2 = (w ^ 2 - Rabs v) ^ 2); [|rewrite E1; reflexivity].
      set (m := Rabs v) in *. rewrite Hsv.
      replace ((sg * w ^ 2 - sg * m) ^ 2) with (sg * sg * (w ^ 2 - m) ^ 2) by ring.
      rewrite Hs2. ring. }
    rewrite E1. apply quartic_gap; auto. apply sqrt_pos.
Qed.

Lemma prox_05_fin t v : 0 < t -> prox_05 xops (Fin v) (Fin t) = Fin (r05 t v).
Proof.
  intros Ht. unfold prox_05, r05. cbn [fpowf flit xops]. unfold xlit. cbn [xpowf].
  rewrite (proj2 (Reqb_false (2 / 3) 0)) by lra.
  rewrite (proj2 (Rltb_spec 0 t)) by auto. cbn [fmul fabs flt xabs xmul xops xlt].
  destruct (Rltb (Rabs v) _) eqn:E; [reflexivity|]. rb.
  destruct (trig_root t (Rabs v) Ht E) as (Hv0 & Hc & _).
  cbn [fcast xops]. unfold xcast. cbn [xpowf]. rewrite (proj2 (Reqb_false (3 / 2) 0)) by lra.
  assert (0 < INR 3) by (simpl; lra). rewrite (proj2 (Rltb_spec 0 (INR 3))) by auto.
  rewrite (proj2 (Reqb_false (-3 / 2) 0)) by lra. rewrite (proj2 (Rltb_spec 0 (Rabs v))) by auto.
  cbn [fdiv fneg xops]. rewrite xdiv_fin by (simpl; lra).
  cbn [xopp xmul facos xacos xops].
  assert (Hc' : Rleb (Rabs (- (Rpower (INR 3) (3 / 2) / INR 4) * t * Rpower (Rabs v) (-3 / 2))) 1 = true).
  { apply Rleb_spec. apply Rabs_le. lra. }
  rewrite Hc'. reflexivity.
Qed.

Lemma l05_prox_min v s a : 0 < s -> 0 < a ->
  exists u, pen_prox (l05_penalty xops) (L05 (Fin a)) (Fin v) (Fin s) = Fin u /\
            strong_min 0 (prox_obj (fun x => s * (a * sqrt (Rabs x))) v) u.
Proof.
  intros Hs Ha. exists (r05 (s * a) v). split.
  - cbn. apply prox_05_fin. nra.
  - intros x. pose proof (r05_min (s * a) v ltac:(nra) x) as H. unfold prox_obj.
    unfold h05 in H. lra.
Qed.

(** at value 0 with zero regularisation the closed form is not a number *)
Lemma prox_05_nan : pen_prox (l05_penalty xops) (L05 (Fin 0)) (Fin 0) (Fin 1) = NaN.
Proof.
  change (prox_05 xops (Fin 0) (Fin (1 * 0)) = NaN).
  replace (1 * 0) with 0 by ring.
  unfold prox_05. cbn [fpowf flit xops]. unfold xlit. cbn [xpowf].
  rewrite (proj2 (Reqb_false (2 / 3) 0)) by lra.
  rewrite (proj2 (Rltb_false 0 0)) by lra. rewrite Reqb_refl.
  rewrite (proj2 (Rltb_spec 0 (2 / 3))) by lra.
  cbn [fmul fabs flt xabs xmul xops xlt]. rewrite Rabs_R0.
  rewrite (proj2 (Rltb_false _ _)) by lra.
  cbn [fcast xops]. unfold xcast. cbn [xpowf].
  rewrite (proj2 (Reqb_false (-3 / 2) 0)) by lra.
  rewrite (proj2 (Reqb_false (3 / 2) 0)) by lra.
  rewrite (proj2 (Rltb_spec 0 (INR 3))) by (simpl; lra).
  rewrite (proj2 (Rltb_false 0 0)) by lra. rewrite Reqb_refl.
  rewrite (proj2 (Rltb_false 0 (-3 / 2))) by lra.
  cbn [fdiv fneg xops]. rewrite xdiv_fin by (simpl; lra). cbn [xopp xmul].
  rewrite Rmult_0_r. unfold inf_of. rewrite (proj2 (Rltb_false 0 0)) by lra. reflexivity.
Qed.
