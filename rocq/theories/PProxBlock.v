(** Proofs: multi-task proximal operators. *)
From Coq Require Import List ZArith Bool Arith Reals Lra Lia Psatz.
From Verif Require Import Ops Arr XR SpecPen VecR MUtils MPenalties MBlockPenalties PProx.
Import ListNotations.
Open Scope R_scope.

Definition rbst (v : list R) (t : R) : list R :=
  if Rltb (norm2 v) t then repeat 0 (length v) else vscale (1 - t / norm2 v) v.

Lemma map_Fin_repeat n x : repeat (Fin x) n = map Fin (repeat x n).
Proof. induction n; simpl; congruence. Qed.

Lemma bst_fin v t : norm2 v <> 0 \/ 0 < t ->
  block_soft_thresholding xops (map Fin v) (Fin t) = map Fin (rbst v t).
Proof.
  intros H. unfold block_soft_thresholding, rbst. cbn [nsum fsqrt xops].
  rewrite xsum_sq, xsqrt_norm. cbn [flt xops]. rewrite xlt_fin.
  destruct (Rltb (norm2 v) t) eqn:E; rb.
  - unfold vzeros. rewrite map_length. apply map_Fin_repeat.
  - assert (norm2 v <> 0) by (pose proof (norm2_pos v); destruct H; lra).
    cbn [f1 fsub fdiv xops]. rewrite xdiv_fin by auto. cbn [xsub].
    unfold vscale. rewrite !map_map. apply map_ext. intros a. cbn. f_equal. ring.
Qed.

Lemma bst_nan n : (0 < n)%nat ->
  block_soft_thresholding xops (map Fin (repeat 0 n)) (Fin 0) = repeat NaN n.
Proof.
  intros _. unfold block_soft_thresholding. cbn [nsum fsqrt xops].
  rewrite xsum_sq, xsqrt_norm, norm2_0. cbn [flt xops xlt].
  rewrite (proj2 (Rltb_false 0 0)) by lra. cbn. rewrite Reqb_refl. unfold inf_of.
  rewrite (proj2 (Rltb_false 0 0)) by lra. cbn.
  induction n; simpl; congruence.
Qed.

(** soft threshold on the nonnegative half line *)
Lemma rbst_scalar r t : 0 <= r -> 0 <= t -> r < t \/ True ->
  forall x, 0 <= x -> (Rmax 0 (r - t) - r) ^ 2 / 2 + t * Rmax 0 (r - t) + (x - Rmax 0 (r - t)) ^ 2 / 2
            <= (x - r) ^ 2 / 2 + t * x.
Proof.
  intros Hr Ht _ x Hx.
  unfold Rmax. destruct (Rle_dec 0 (r - t)); nra.
Qed.

Lemma rbst_form v t : 0 <= t -> 0 < norm2 v ->
  rbst v t = vscale (Rmax 0 (norm2 v - t) / norm2 v) v.
Proof.
  intros Ht Hv. unfold rbst. destruct (Rltb _ _) eqn:E; rb.
  - rewrite Rmax_left by lra. unfold vscale.
    replace (0 / norm2 v) with 0 by (field; lra).
    clear. induction v; simpl; f_equal; auto. ring.
  - rewrite Rmax_right by lra. f_equal. field. lra.
Qed.

Lemma vprox_zero n c phi v : length v = n -> norm2 v = 0 -> 0 <= c ->
  (forall x, 0 <= x -> phi 0 + c / 2 * x ^ 2 <= x ^ 2 / 2 + phi x) ->
  vstrong_min n c (vprox_obj phi v) (repeat 0 n).
Proof.
  intros Hn Hv Hc H. split; [apply repeat_length|]. intros x Hx.
  apply norm2_0_inv in Hv. rewrite Hn in Hv. rewrite Hv. unfold vprox_obj.
  rewrite !norm2_minus_sq by (rewrite ?repeat_length; auto).
  rewrite norm2_0. rewrite !dotp_0_l, !dotp_0_r. rewrite <- norm2_sq.
  specialize (H (norm2 x) (norm2_pos x)). lra.
Qed.

Lemma rbst_min n v t : length v = n -> 0 <= t -> norm2 v <> 0 \/ 0 < t ->
  vstrong_min n 1 (vprox_obj (fun x => t * x) v) (rbst v t).
Proof.
  intros Hn Ht H. pose proof (norm2_pos v) as Hp.
  destruct (Req_dec (norm2 v) 0) as [E|E].
  - assert (Ht0 : 0 < t) by (destruct H; [contradiction|auto]).
    unfold rbst. rewrite E, (proj2 (Rltb_spec 0 t)) by auto. rewrite Hn.
    apply vprox_zero; auto; try lra. intros x Hx. nra.
  - rewrite rbst_form by lra. apply radial_min; auto; try lra.
    + apply Rmax_l.
    + unfold Rmax; destruct (Rle_dec _ _); lra.
    + intros x Hx. pose proof (rbst_scalar (norm2 v) t Hp Ht (or_intror I) x Hx). lra.
Qed.

Lemma l21_prox_min n v s a : length v = n -> 0 < s -> 0 <= a -> norm2 v <> 0 \/ 0 < a ->
  exists u, bpen_prox (l21_penalty xops) (L21 (Fin a)) (map Fin v) (Fin s) = map Fin u /\
            vstrong_min n 1 (vprox_obj (fun x => s * (a * x)) v) u.
Proof.
  intros Hn Hs Ha H. exists (rbst v (a * s)). split.
  - cbn [bpen_prox l21_penalty]. unfold l21_prox. cbn [l21_alpha].
    change (fmul xops (Fin a) (Fin s)) with (Fin (a * s)). apply bst_fin.
    destruct H; [left; auto|right; nra].
  - assert (Hb := rbst_min n v (a * s) Hn ltac:(nra) ltac:(destruct H; [left; auto|right; nra])).
    destruct Hb as [Hl Hb]. split; auto. intros x Hx. specialize (Hb x Hx).
    unfold vprox_obj in *. lra.
Qed.

Lemma bl1l2_prox_min n v s a r : length v = n -> 0 < s -> 0 <= a -> 0 <= r <= 1 ->
  norm2 v <> 0 \/ 0 < a * r ->
  exists u, bpen_prox (bl1l2_penalty xops) (BlockL1PlusL2 (Fin a) (Fin r)) (map Fin v) (Fin s)
              = map Fin u /\
            vstrong_min n (1 + s * (1 - r) * a)
              (vprox_obj (fun x => s * (a * (r * x + (1 - r) / 2 * x ^ 2))) v) u.
Proof.
  intros Hn Hs Ha Hr H.
  assert (Hc0 : 0 <= s * (1 - r) * a) by (apply Rmult_le_pos; nra).
  set (c := 1 + s * (1 - r) * a) in *. assert (Hc : 1 <= c) by (unfold c; lra).
  assert (Ht : 0 <= a * s * r) by (apply Rmult_le_pos; nra).
  set (t := a * s * r) in *.
  assert (H' : norm2 v <> 0 \/ 0 < t).
  { destruct H; [left; auto|right; unfold t; nra]. }
  exists (map (fun x => x / c) (rbst v t)). split.
  - cbn [bpen_prox bl1l2_penalty]. unfold bl1l2_prox. cbn [bl_alpha bl_l21_ratio].
    change (fmul xops (fmul xops (Fin a) (Fin s)) (Fin r)) with (Fin t).
    rewrite bst_fin by auto. rewrite !map_map. apply map_ext. intros x.
    cbn [fadd fsub fmul fdiv f1 xops xsub xmul xadd]. fold c. apply xdiv_fin. lra.
  - pose proof (norm2_pos v) as Hp.
    assert (Hphi : forall x, s * (a * (r * x + (1 - r) / 2 * x ^ 2)) = t * x + (c - 1) / 2 * x ^ 2).
    { intros x. unfold t, c. field. }
    destruct (Req_dec (norm2 v) 0) as [E|E].
    + assert (Ht0 : 0 < t) by (destruct H'; [contradiction|auto]).
      assert (Er : map (fun x => x / c) (rbst v t) = repeat 0 n).
      { unfold rbst. rewrite E, (proj2 (Rltb_spec 0 t)) by auto. rewrite Hn.
        clear. induction n; simpl; auto. rewrite IHn. f_equal. unfold Rdiv. ring. }
      rewrite Er. apply vprox_zero; auto; try lra.
      intros x Hx. rewrite !Hphi. nra.
    + set (m := Rmax 0 (norm2 v - t)).
      assert (Hm : 0 <= m) by apply Rmax_l.
      assert (Er : map (fun x => x / c) (rbst v t) = vscale (m / c / norm2 v) v).
      { rewrite rbst_form by lra. unfold vscale. rewrite map_map. apply map_ext.
        intros x. fold m. field. split; lra. }
      rewrite Er. apply radial_min; auto; try lra.
      * apply Rmult_le_pos; auto. left. apply Rinv_0_lt_compat. lra.
      * replace (c * (m / c)) with m by (field; lra). unfold m, Rmax. destruct (Rle_dec _ _); lra.
      * intros x Hx. rewrite !Hphi.
        set (rr := norm2 v) in *.
        (* m = max 0 (rr - t); optimality of m/c for the scaled problem *)
        assert (Ho : (rr - m) * (x - m / c) <= t * (x - m / c)).
        { unfold m, Rmax. destruct (Rle_dec _ _).
          - replace (rr - (rr - t)) with t by ring. lra.
          - replace (0 / c) with 0 by (field; lra). nra. }
        assert (Em : m = c * (m / c)) by (field; lra).
        set (w := m / c) in *. rewrite Em in Ho. nra.
Qed.

(** *** Block MCP *)
Lemma mcp_pen_pos_arg a g x : 0 <= x ->
  mcp_pen a g x = if Rle_dec x (g * a) then a * x - x ^ 2 / (2 * g) else g * a ^ 2 / 2.
Proof. intros H. unfold mcp_pen. rewrite (Rabs_right x) by lra. reflexivity. Qed.

Lemma bmcp_prox_min n v s a g : length v = n -> 0 < s -> 0 <= a -> s <= g ->
  exists u, bpen_prox (bmcp_penalty xops) (BlockMCP (Fin a) (Fin g)) (map Fin v) (Fin s)
              = map Fin u /\
            vstrong_min n (1 - s / g) (vprox_obj (fun x => s * mcp_pen a g x) v) u.
Proof.
  intros Hn Hs Ha Hg. pose proof (norm2_pos v) as Hp.
  assert (Hgs : 0 < g / s) by (apply Rmult_lt_0_compat; [lra|apply Rinv_0_lt_compat; lra]).
  assert (Hmin := rmcp_prox_min (norm2 v) s a g Hs Ha Hg).
  set (rho := rmcp_prox a g s (norm2 v)) in *.
  assert (Hcpos : 0 <= 1 - s / g <= 1).
  { assert (0 < s / g) by (apply Rmult_lt_0_compat; [lra|apply Rinv_0_lt_compat; lra]).
    assert (s / g <= 1). { apply Rmult_le_reg_r with g; [lra|]. unfold Rdiv. rewrite Rmult_assoc, Rinv_l; lra. }
    lra. }
  assert (Hga : g / s * (a * s) = g * a) by (field; lra).
  destruct (Req_dec (norm2 v) 0) as [E|E].
  - exists (repeat 0 n). split.
    + cbn [bpen_prox bmcp_penalty]. unfold bmcp_prox, rownorm. cbn [ndot fsqrt xops].
      rewrite xdot_dotp, xsqrt_norm, E. cbn [bmcp_alpha bmcp_gamma fmul fle xops xmul xle].
      rewrite (proj2 (Rleb_spec 0 (a * s))) by nra.
      unfold vzeros. rewrite map_length, Hn. apply map_Fin_repeat.
    + apply vprox_zero; auto; try lra. intros x Hx.
      assert (Er : rho = 0).
      { unfold rho, rmcp_prox. rewrite E, Rabs_R0. rewrite (proj2 (Rleb_spec 0 (a * s))); auto. nra. }
      specialize (Hmin x). rewrite Er, E in Hmin. unfold prox_obj in Hmin.
      replace (x - 0) with x in Hmin by ring. nra.
  - exists (vscale (rho / norm2 v) v). split.
    + cbn [bpen_prox bmcp_penalty]. unfold bmcp_prox, rownorm. cbn [ndot fsqrt xops].
      rewrite xdot_dotp, xsqrt_norm. cbn [bmcp_alpha bmcp_gamma fmul fdiv xops].
      rewrite xdiv_fin by lra. cbn [fle flt fmul xops xmul xle xlt].
      unfold rho, rmcp_prox. rewrite (Rabs_right (norm2 v)) by lra.
      destruct (Rleb (norm2 v) (a * s)) eqn:E1; [|destruct (Rltb (g / s * (a * s)) (norm2 v)) eqn:E2]; rb.
      * unfold vzeros. rewrite map_length. unfold vscale. rewrite map_map. cbn [f0 xops].
        replace (0 / norm2 v) with 0 by (field; auto). clear.
        induction v; simpl; auto. rewrite IHv. f_equal. f_equal. ring.
      * unfold vscale. rewrite map_map. apply map_ext. intros x. f_equal. field. auto.
      * assert (Hne : 1 - 1 / (g / s) <> 0).
        { assert (s < g). { destruct (Rle_lt_or_eq_dec s g Hg); auto. subst g. nra. }
          replace (1 - 1 / (g / s)) with ((g - s) / g) by (field; lra).
          apply Rgt_not_eq. apply Rmult_lt_0_compat; [lra|apply Rinv_0_lt_compat; lra]. }
        rewrite (proj2 (Rltb_false (norm2 v) 0)) by lra.
        unfold vscale. rewrite !map_map. apply map_ext. intros x.
        cbn [f1 fsub fdiv fmul xops]. rewrite xdiv_fin by auto. cbn [xsub xmul].
        rewrite xdiv_fin by lra. cbn [xsub]. rewrite xdiv_fin by auto. f_equal.
        field. repeat split; try lra.
        intro Hz. apply Hne. replace (1 - 1 / (g / s)) with ((g - s) / g) by (field; lra).
        rewrite Hz. unfold Rdiv. ring.
    + assert (Hrho0 : 0 <= rho).
      { unfold rho, rmcp_prox. rewrite (Rabs_right (norm2 v)) by lra. rewrite Hga.
        destruct (Rleb _ _) eqn:E1; [|destruct (Rltb (g * a) (norm2 v)) eqn:E2]; rb; try lra.
        rewrite (proj2 (Rltb_false (norm2 v) 0)) by lra.
        assert (s < g). { destruct (Rle_lt_or_eq_dec s g Hg); auto. subst g. nra. }
        replace (1 * (norm2 v - a * s) / (1 - 1 / (g / s))) with ((norm2 v - a * s) * g / (g - s)) by (field; lra).
        apply Rmult_le_pos; [nra|left; apply Rinv_0_lt_compat; lra]. }
      apply radial_min; auto; try lra.
      * (* (1 - s/g) rho <= norm2 v *)
        unfold rho, rmcp_prox. rewrite (Rabs_right (norm2 v)) by lra. rewrite Hga.
        destruct (Rleb _ _) eqn:E1; [|destruct (Rltb (g * a) (norm2 v)) eqn:E2]; rb; try nra.
        rewrite (proj2 (Rltb_false (norm2 v) 0)) by lra.
        assert (s < g). { destruct (Rle_lt_or_eq_dec s g Hg); auto. subst g. nra. }
        replace ((1 - s / g) * (1 * (norm2 v - a * s) / (1 - 1 / (g / s)))) with (norm2 v - a * s) by (field; lra).
        nra.
      * intros x Hx. specialize (Hmin x). unfold prox_obj in Hmin. lra.
Qed.
