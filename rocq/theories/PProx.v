(** Proofs: single-task proximal operators. *)
From Coq Require Import List ZArith Bool Arith Reals Lra Lia Psatz.
From Verif Require Import Ops Arr XR SpecPen MUtils MPenalties.
Import ListNotations.
Open Scope R_scope.

Definition rsoft (x t : R) : R := if Rltb t x then x - t else if Rltb x (- t) then x + t else 0.

Lemma soft_fin x t : soft_thresholding xops (Fin x) (Fin t) = Fin (rsoft x t).
Proof. unfold soft_thresholding, rsoft. simpl. repeat rcase; auto. Qed.

Lemma rsoft_opt v t : 0 <= t ->
  forall x, (rsoft v t - v) ^ 2 / 2 + t * Rabs (rsoft v t) + (x - rsoft v t) ^ 2 / 2
            <= (x - v) ^ 2 / 2 + t * Rabs x.
Proof.
  intros Ht x. unfold rsoft.
  destruct (Rltb t v) eqn:E1; [|destruct (Rltb v (- t)) eqn:E2]; rb.
  - rewrite (Rabs_right (v - t)) by lra.
    pose proof (Rle_abs x). nra.
  - rewrite (Rabs_left (v + t)) by lra.
    pose proof (Rle_abs (- x)). rewrite Rabs_Ropp in H. nra.
  - rewrite Rabs_R0. unfold Rabs; destruct (Rcase_abs x); nra.
Qed.

Lemma l1_prox_min v s a : 0 < s -> 0 <= a ->
  exists u, pen_prox (l1_penalty xops) (L1 (Fin a)) (Fin v) (Fin s) = Fin u /\
            strong_min 1 (prox_obj (fun x => s * abs_pen a x) v) u.
Proof.
  intros Hs Ha. exists (rsoft v (a * s)). split.
  - cbn [pen_prox l1_penalty l1_alpha]. unfold l1_prox. cbn [l1_alpha].
    change (fmul xops (Fin a) (Fin s)) with (Fin (a * s)). apply soft_fin.
  - intros x. unfold prox_obj, abs_pen.
    pose proof (rsoft_opt v (a * s) ltac:(nra) x). nra.
Qed.

Lemma l1l2_prox_min v s a r : 0 < s -> 0 <= a -> 0 <= r <= 1 ->
  exists u, pen_prox (l1l2_penalty xops) (L1PlusL2 (Fin a) (Fin r)) (Fin v) (Fin s) = Fin u /\
            strong_min (1 + s * (1 - r) * a) (prox_obj (fun x => s * enet_pen a r x) v) u.
Proof.
  intros Hs Ha Hr.
  assert (Hc : 1 + s * (1 - r) * a > 0).
  { assert (0 <= s * (1 - r)) by nra. nra. }
  exists (rsoft v (r * a * s) / (1 + s * (1 - r) * a)). split.
  - cbn [pen_prox l1l2_penalty]. unfold l1l2_prox. cbn [en_alpha en_l1_ratio].
    change (fmul xops (fmul xops (Fin r) (Fin a)) (Fin s)) with (Fin (r * a * s)).
    rewrite soft_fin. cbn. rewrite (proj2 (Reqb_false _ _)); [reflexivity | lra].
  - intros x. unfold prox_obj, enet_pen.
    set (c := 1 + s * (1 - r) * a) in *. set (t := r * a * s).
    assert (Ht : 0 <= t) by (unfold t; apply Rmult_le_pos; nra).
    set (u := rsoft v t).
    (* optimality of the soft threshold at the point c * x *)
    assert (Hx := rsoft_opt v t Ht (c * x)). fold u in Hx.
    rewrite Rabs_mult, (Rabs_right c) in Hx by lra.
    assert (Hz : rsoft v t * (v - rsoft v t) = t * Rabs (rsoft v t)).
    { unfold rsoft. repeat rcase.
      - rewrite Rabs_right by lra. lra.
      - rewrite Rabs_left by lra. lra.
      - rewrite Rabs_R0. lra. }
    fold u in Hz.
    assert (Hy : (v - u) * (c * x) <= t * (c * Rabs x)) by nra.
    assert (Hy' : (v - u) * x <= t * Rabs x) by nra.
    assert (Hab : Rabs (u / c) = Rabs u / c).
    { unfold Rdiv. rewrite Rabs_mult, (Rabs_right (/ c)); auto.
      left. apply Rinv_0_lt_compat. lra. }
    rewrite Hab.
    assert (E : u = c * (u / c)) by (field; lra).
    set (w := u / c) in *.
    assert (Hs' : s * (a * (r * Rabs x + (1 - r) / 2 * x ^ 2))
                  = t * Rabs x + (c - 1) / 2 * x ^ 2) by (unfold t, c; field).
    rewrite Hs'.
    assert (Hs'' : s * (a * (r * (Rabs u / c) + (1 - r) / 2 * w ^ 2))
                  = t * Rabs u / c + (c - 1) / 2 * w ^ 2) by (unfold t, c; field; fold c; lra).
    rewrite Hs''.
    assert (Hz' : t * Rabs u / c = w * (v - u)) by (rewrite <- Hz; unfold w; field; lra).
    rewrite Hz'. rewrite E in Hy' |- *.
    replace (c * w / c) with w by (field; lra). nra.
Qed.

(** *** MCP *)

(** [mcp + x^2/(2 gamma)] is convex; [q] below is a subgradient of it *)
Definition mcp_hull (a g x : R) : R := mcp_pen a g x + x ^ 2 / (2 * g).

Lemma mcp_hull_ge a g x : 0 <= a -> 0 < g -> a * Rabs x <= mcp_hull a g x.
Proof.
  intros Ha Hg. unfold mcp_hull, mcp_pen. destruct (Rle_dec _ _).
  - lra.
  - assert (g * a ^ 2 / 2 + x ^ 2 / (2 * g) - a * Rabs x = (Rabs x - g * a) ^ 2 / (2 * g)).
    { rewrite <- (pow2_abs x). field. lra. }
    assert (0 <= (Rabs x - g * a) ^ 2 / (2 * g)).
    { apply Rmult_le_pos; [apply pow2_ge_0 | left; apply Rinv_0_lt_compat; lra]. }
    lra.
Qed.
Lemma mcp_hull_in a g x : Rabs x <= g * a -> mcp_hull a g x = a * Rabs x.
Proof. intros H. unfold mcp_hull, mcp_pen. destruct (Rle_dec _ _); [lra|contradiction]. Qed.
Lemma mcp_hull_out a g x : g * a <= Rabs x -> 0 < g ->
  mcp_hull a g x = g * a ^ 2 / 2 + x ^ 2 / (2 * g).
Proof.
  intros H Hg. unfold mcp_hull, mcp_pen. destruct (Rle_dec _ _); [|lra].
  assert (E : Rabs x = g * a) by lra. rewrite <- (pow2_abs x), E. field. lra.
Qed.
Lemma mcp_hull_sub_out a g u x : 0 <= a -> 0 < g -> g * a <= Rabs u ->
  mcp_hull a g u + u / g * (x - u) <= mcp_hull a g x.
Proof.
  intros Ha Hg Hu. rewrite (mcp_hull_out a g u) by auto.
  destruct (Rle_dec (g * a) (Rabs x)) as [H|H].
  - rewrite (mcp_hull_out a g x) by auto.
    assert (x ^ 2 / (2 * g) - u ^ 2 / (2 * g) - u / g * (x - u) = (x - u) ^ 2 / (2 * g)) by (field; lra).
    assert (0 <= (x - u) ^ 2 / (2 * g)).
    { apply Rmult_le_pos; [apply pow2_ge_0 | left; apply Rinv_0_lt_compat; lra]. }
    lra.
  - rewrite (mcp_hull_in a g x) by lra.
    assert (E : a * Rabs x - (g * a ^ 2 / 2 + u ^ 2 / (2 * g) + u / g * (x - u))
            = (2 * g * (a * Rabs x) - (g * a) ^ 2 + u ^ 2 - 2 * u * x) / (2 * g)) by (field; lra).
    assert (0 <= (2 * g * (a * Rabs x) - (g * a) ^ 2 + u ^ 2 - 2 * u * x) / (2 * g)); [|lra].
    apply Rmult_le_pos; [|left; apply Rinv_0_lt_compat; lra].
    rewrite <- (pow2_abs u).
    assert (u * x <= Rabs u * Rabs x) by (rewrite <- Rabs_mult; apply Rle_abs).
    assert (0 <= (Rabs u - g * a) * (Rabs u + g * a - 2 * Rabs x)) by (apply Rmult_le_pos; lra).
    nra.
Qed.

(** stationarity with a subgradient of the hull gives the strong minimum *)
Lemma mcp_strong_min a g s v u q : 0 < g -> 0 < s ->
  (forall x, mcp_hull a g u + q * (x - u) <= mcp_hull a g x) ->
  u - v + s * (q - u / g) = 0 ->
  strong_min (1 - s / g) (prox_obj (fun x => s * mcp_pen a g x) v) u.
Proof.
  intros Hg Hs Hq Hst x. specialize (Hq x). unfold prox_obj. unfold mcp_hull in Hq.
  assert (E : v = u + s * (q - u / g)) by lra.
  assert (s * (mcp_pen a g u + u ^ 2 / (2 * g) + q * (x - u))
          <= s * (mcp_pen a g x + x ^ 2 / (2 * g))) by nra.
  subst v.
  assert (I : (x - (u + s * (q - u / g))) ^ 2 / 2 - (u - (u + s * (q - u / g))) ^ 2 / 2
     - (1 - s / g) / 2 * (x - u) ^ 2
     = s * (x ^ 2 / (2 * g)) - s * (u ^ 2 / (2 * g)) - s * (q * (x - u))) by (field; lra).
  lra.
Qed.

Definition rmcp_prox (a g s v : R) : R :=
  if Rleb (Rabs v) (a * s) then 0
  else if Rltb (g / s * (a * s)) (Rabs v) then v
  else (if Rltb v 0 then -1 else 1) * (Rabs v - a * s) / (1 - 1 / (g / s)).

Lemma mcp_prox_fin a g s v : 0 < s -> 0 < g ->
  mcp_prox xops (MCP (Fin a) (Fin g)) (Fin v) (Fin s) = Fin (rmcp_prox a g s v).
Proof.
  intros Hs Hg. unfold mcp_prox, rmcp_prox. cbn [mcp_alpha mcp_gamma].
  cbn [fdiv xops]. rewrite xdiv_fin by lra. cbn [fmul fabs fle flt xops xmul xabs xle xlt f0].
  destruct (Rleb (Rabs v) (a * s)) eqn:E1; auto.
  destruct (Rltb (g / s * (a * s)) (Rabs v)) eqn:E2; auto. rb.
  cbn [fsignum fsub f1 xops xsignum].
  assert (Hgs : g / s <> 0).
  { intro H. apply (f_equal (fun z => z * s)) in H. unfold Rdiv in H. rewrite Rmult_assoc, Rinv_l in H; lra. }
  rewrite xdiv_fin by auto. cbn [xsub].
  assert (E : 1 - 1 / (g / s) <> 0).
  { intro H. assert (g / s = 1).
    { apply (f_equal (fun z => z * (g / s))) in H.
      replace ((1 - 1 / (g / s)) * (g / s)) with (g / s - 1) in H by (field; split; lra). lra. }
    rewrite H0 in E2. lra. }
  destruct (Rltb v 0); cbn [xmul]; rewrite xdiv_fin; auto.
Qed.

Lemma rmcp_prox_min v s a g : 0 < s -> 0 <= a -> s <= g ->
  strong_min (1 - s / g) (prox_obj (fun x => s * mcp_pen a g x) v) (rmcp_prox a g s v).
Proof.
  intros Hs Ha Hg.
  assert (Hgs : g / s * (a * s) = g * a) by (field; lra).
  unfold rmcp_prox. rewrite Hgs.
  assert (Hga : 0 <= g * a) by nra.
  destruct (Rleb (Rabs v) (a * s)) eqn:E1; [|destruct (Rltb (g * a) (Rabs v)) eqn:E2]; rb.
  - apply (mcp_strong_min a g s v 0 (v / s)); auto; try lra.
    + intros x. rewrite (mcp_hull_in a g 0) by (rewrite Rabs_R0; lra). rewrite Rabs_R0.
      pose proof (mcp_hull_ge a g x Ha ltac:(lra)).
      assert (v / s * x <= a * Rabs x).
      { apply Rle_trans with (Rabs (v / s * x)); [apply Rle_abs|].
        rewrite Rabs_mult. apply Rmult_le_compat_r; [apply Rabs_pos|].
        unfold Rdiv. rewrite Rabs_mult, (Rabs_right (/ s)) by (left; apply Rinv_0_lt_compat; lra).
        apply Rmult_le_reg_r with s; auto. rewrite Rmult_assoc, Rinv_l; lra. }
      lra.
    + field. lra.
  - apply (mcp_strong_min a g s v v (v / g)); auto; try lra.
    + intros x. apply mcp_hull_sub_out; lra.
  - assert (Hlt : s < g).
    { destruct (Rle_lt_or_eq_dec s g Hg); auto. subst g. nra. }
    set (sg := if Rltb v 0 then -1 else 1).
    assert (Hsg : v = sg * Rabs v /\ sg * sg = 1).
    { unfold sg. rcase; [rewrite Rabs_left|rewrite Rabs_right]; lra. }
    destruct Hsg as [Hv Hs2].
    set (m := (Rabs v - a * s) / (1 - 1 / (g / s))).
    replace (sg * (Rabs v - a * s) / (1 - 1 / (g / s))) with (sg * m)
      by (unfold m; field; repeat split; try lra).
    assert (Hm : m = (Rabs v - a * s) * g / (g - s)) by (unfold m; field; repeat split; lra).
    assert (Hm0 : 0 < m).
    { rewrite Hm. apply Rmult_lt_0_compat; [nra|apply Rinv_0_lt_compat; lra]. }
    assert (Hm1 : m <= g * a).
    { rewrite Hm. apply Rmult_le_reg_r with (g - s); [lra|].
      unfold Rdiv. rewrite Rmult_assoc, Rinv_l by lra. nra. }
    assert (Habs : Rabs (sg * m) = m).
    { rewrite Rabs_mult, (Rabs_right m) by lra.
      assert (Rabs sg = 1). { unfold sg. rcase; [rewrite Rabs_left|rewrite Rabs_right]; lra. }
      rewrite H. lra. }
    apply (mcp_strong_min a g s v (sg * m) (a * sg)); auto; try lra.
    + intros x. rewrite (mcp_hull_in a g (sg * m)) by lra. rewrite Habs.
      pose proof (mcp_hull_ge a g x Ha ltac:(lra)).
      assert (sg * x <= Rabs x).
      { unfold sg. rcase; unfold Rabs; destruct (Rcase_abs x); lra. }
      assert (a * (sg * x) <= a * Rabs x) by (apply Rmult_le_compat_l; auto).
      replace (a * m + a * sg * (x - sg * m)) with (a * m * (1 - sg * sg) + a * (sg * x)) by ring.
      rewrite Hs2. lra.
    + rewrite Hv at 1. rewrite Hm. field. lra.
Qed.

Lemma mcp_prox_min v s a g : 0 < s -> 0 <= a -> s <= g ->
  exists u, pen_prox (mcp_penalty xops) (MCP (Fin a) (Fin g)) (Fin v) (Fin s) = Fin u /\
            strong_min (1 - s / g) (prox_obj (fun x => s * mcp_pen a g x) v) u.
Proof.
  intros Hs Ha Hg. exists (rmcp_prox a g s v). split.
  - cbn [pen_prox mcp_penalty]. apply mcp_prox_fin; lra.
  - apply rmcp_prox_min; auto.
Qed.

(** gamma below the step: the returned point can be strictly worse than another one *)
Lemma mcp_prox_bad :
  mcp_prox xops (MCP (Fin 1) (Fin 1)) (Fin 2) (Fin 2) = Fin 0 /\
  prox_obj (fun x => 2 * mcp_pen 1 1 x) 2 2 < prox_obj (fun x => 2 * mcp_pen 1 1 x) 2 0.
Proof.
  split.
  - unfold mcp_prox. cbn. rewrite (proj2 (Reqb_false 2 0)) by lra. cbn.
    rewrite (Rabs_right 2) by lra. rewrite (proj2 (Rleb_spec _ _)); [auto|lra].
  - unfold prox_obj, mcp_pen. rewrite Rabs_R0, (Rabs_right 2) by lra.
    repeat destruct (Rle_dec _ _); lra.
Qed.
