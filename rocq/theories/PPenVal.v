(** Penalty values on finite coefficients. *)
From Coq Require Import List ZArith Bool Arith Reals Lra Lia Psatz.
From Verif Require Import Ops Arr MUtils MPenalties MBlockPenalties XR SpecPen VecR PSubdiffBlock PBase RSum.
Import ListNotations.
Open Scope R_scope.

Lemma map_repeat {A B} (f : A -> B) x n : map f (repeat x n) = repeat (f x) n.
Proof. induction n; simpl; congruence. Qed.
Lemma Rsum_scal {A} c (f : A -> R) l : Rsum (map (fun x => c * f x) l) = c * Rsum (map f l).
Proof. unfold Rsum. induction l; simpl; [lra|]. rewrite IHl. lra. Qed.
Lemma Rsum_plus {A} (f g : A -> R) l : Rsum (map (fun x => f x + g x) l) = Rsum (map f l) + Rsum (map g l).
Proof. unfold Rsum. induction l; simpl; [lra|]. rewrite IHl. lra. Qed.
Lemma Rsum_nonneg {A} (f : A -> R) l : (forall x, 0 <= f x) -> 0 <= Rsum (map f l).
Proof. intros H. unfold Rsum. induction l; simpl; [lra|]. specialize (H a). lra. Qed.
Lemma Rsum_repeat0 {A} (f : A -> R) x n : f x = 0 -> Rsum (map f (repeat x n)) = 0.
Proof. intros H. induction n; simpl; auto. unfold Rsum in *. simpl. rewrite H, IHn. lra. Qed.
Lemma xsum_map {A} (g : A -> xr) (h : A -> R) (l : list A) : (forall a, g a = Fin (h a)) -> xsum (map g l) = Fin (Rsum (map h l)).
Proof. intros H. rewrite <- xsum_fin, map_map. f_equal. apply map_ext. auto. Qed.

Lemma l1_value_fin a w : l1_value xops (L1 (Fin a)) (map Fin w) = Fin (Rsum (map (abs_pen a) w)).
Proof.
  unfold l1_value, abs_pen. cbn [isum xops l1_alpha fabs fmul]. rewrite map_map.
  rewrite (xsum_map (fun x => xabs (Fin x)) Rabs) by reflexivity. simpl. f_equal. symmetry. apply (Rsum_scal a Rabs).
Qed.
Lemma l1l2_value_fin a r w : l1l2_value xops (L1PlusL2 (Fin a) (Fin r)) (map Fin w) = Fin (Rsum (map (enet_pen a r) w)).
Proof.
  unfold l1l2_value, enet_pen. cbn [isum ndot xops en_alpha en_l1_ratio fabs fmul fadd fsub f1 flit]. rewrite map_map.
  rewrite (xsum_map (fun x => xabs (Fin x)) Rabs) by reflexivity. rewrite xdot_fin. unfold xlit. simpl. f_equal.
  rewrite (Rsum_scal a (fun u => r * Rabs u + (1 - r) / 2 * (u * (u * 1)))). f_equal.
  rewrite (Rsum_plus (fun u => r * Rabs u) (fun u => (1 - r) / 2 * (u * (u * 1)))).
  rewrite (Rsum_scal r Rabs), (Rsum_scal ((1 - r) / 2) (fun u => u * (u * 1))). f_equal.
  rewrite Rdot_dotp, <- Rsum_sq. rewrite (map_ext (fun u => u * (u * 1)) (fun x => x * x)) by (intros; ring). field.
Qed.
Lemma mcp_pen1_fin a g u : 0 < g -> mcp_pen1 xops (MCP (Fin a) (Fin g)) (Fin u) = Fin (mcp_pen a g u).
Proof.
  intros Hg. unfold mcp_pen1, mcp_pen, sq. cbn [flt fabs fmul fsub fdiv flit xops mcp_alpha mcp_gamma]. unfold xlit.
  cbn [xmul xabs xsub xlt]. rewrite !xdiv_fin by lra. cbn [xsub].
  rcase; destruct (Rle_dec (Rabs u) (g * a)); try lra; try (f_equal; field; lra).
  assert (E : Rabs u = g * a) by lra. f_equal. rewrite E.
  replace (u ^ 2) with ((g * a)^2). 2:{ rewrite <- E. apply pow2_abs. } field; lra.
Qed.
Lemma mcp_value_fin a g w : 0 < g ->
  mcp_value xops (MCP (Fin a) (Fin g)) (map Fin w) = Fin (Rsum (map (mcp_pen a g) w)).
Proof.
  intros Hg. unfold mcp_value. cbn [isum xops]. rewrite map_map. apply xsum_map. intros. apply mcp_pen1_fin; auto.
Qed.
Definition l05_pen (alpha u : R) : R := alpha * sqrt (Rabs u).
Lemma l05_value_fin a w : l05_value xops (L05 (Fin a)) (map Fin w) = Fin (Rsum (map (l05_pen a) w)).
Proof.
  unfold l05_value, l05_pen. cbn [nsum xops l05_alpha fabs fmul fsqrt]. rewrite map_map.
  rewrite (xsum_map (fun x => xsqrt (xabs (Fin x))) (fun u => sqrt (Rabs u))).
  2:{ intros. apply xsqrt_fin. apply Rabs_pos. } simpl. f_equal. symmetry. apply (Rsum_scal a (fun u => sqrt (Rabs u))).
Qed.
(** block penalties: sum over rows of the scalar penalty of the row norm *)
Lemma rownorms_fin W : map (rownorm xops) (map (map Fin) W) = map (fun r => Fin (norm2 r)) W.
Proof. rewrite map_map. apply map_ext. intros. apply rownorm_fin. Qed.
Lemma l21_value_fin a r c W :
  l21_value xops (L21 (Fin a)) (Mat r c (map (map Fin) W)) = Fin (Rsum (map (fun row => abs_pen a (norm2 row)) W)).
Proof.
  unfold l21_value. cbn [nsum xops l21_alpha fmul mrows]. rewrite rownorms_fin.
  rewrite (xsum_map _ norm2) by reflexivity. simpl. f_equal. rewrite <- (Rsum_scal a norm2). f_equal.
  apply map_ext. intros. unfold abs_pen. rewrite (Rabs_pos_eq (norm2 _)); auto. apply norm2_pos.
Qed.
Lemma bl1l2_value_fin a rho r c W :
  bl1l2_value xops (BlockL1PlusL2 (Fin a) (Fin rho)) (Mat r c (map (map Fin) W))
  = Fin (Rsum (map (fun row => enet_pen a rho (norm2 row)) W)).
Proof.
  unfold bl1l2_value. cbn [nsum ndot xops bl_alpha bl_l21_ratio fmul mrows]. rewrite rownorms_fin.
  rewrite <- (map_map norm2 Fin). rewrite xdot_fin, xsum_fin. cbn [fadd fmul fsub f1 flit xops]. unfold xlit. simpl. f_equal.
  unfold enet_pen. rewrite (Rsum_scal a (fun row => rho * Rabs (norm2 row) + (1 - rho) / 2 * norm2 row ^ 2)). f_equal.
  rewrite (Rsum_plus (fun row => rho * Rabs (norm2 row)) (fun row => (1 - rho) / 2 * norm2 row ^ 2)).
  rewrite (Rsum_scal rho (fun row => Rabs (norm2 row))), (Rsum_scal ((1 - rho) / 2) (fun row => norm2 row ^ 2)).
  rewrite (map_ext (fun row => Rabs (norm2 row)) norm2) by (intros; apply Rabs_pos_eq, norm2_pos). f_equal.
  rewrite Rdot_dotp, <- Rsum_sq, map_map. rewrite (map_ext (fun x => norm2 x * norm2 x) (fun row => norm2 row ^ 2)) by (intros; ring).
  field.
Qed.
Lemma bmcp_pen1_fin a g u : 0 < g -> 0 <= u -> bmcp_pen1 xops (BlockMCP (Fin a) (Fin g)) (Fin u) = Fin (mcp_pen a g u).
Proof.
  intros Hg Hu. rewrite <- (mcp_pen1_fin a g u Hg). unfold bmcp_pen1, mcp_pen1. cbn.
  rewrite (Rabs_pos_eq u) by auto. rewrite (Rmult_comm a g). reflexivity.
Qed.
Lemma bmcp_value_fin a g r c W : 0 < g ->
  bmcp_value xops (BlockMCP (Fin a) (Fin g)) (Mat r c (map (map Fin) W))
  = Fin (Rsum (map (fun row => mcp_pen a g (norm2 row)) W)).
Proof.
  intros Hg. unfold bmcp_value. cbn [isum xops mrows]. rewrite map_map. apply xsum_map. intros.
  rewrite rownorm_fin. apply bmcp_pen1_fin; auto. apply norm2_pos.
Qed.

(** the scalar penalties *)
Lemma abs_pen_nonneg a u : 0 <= a -> 0 <= abs_pen a u.
Proof. intros. unfold abs_pen. apply Rmult_le_pos; auto. apply Rabs_pos. Qed.
Lemma enet_pen_nonneg a r u : 0 <= a -> 0 <= r <= 1 -> 0 <= enet_pen a r u.
Proof.
  intros. unfold enet_pen. apply Rmult_le_pos; auto. pose proof (Rabs_pos u). pose proof (pow2_ge_0 u).
  assert (0 <= r * Rabs u) by (apply Rmult_le_pos; lra).
  assert (0 <= (1 - r)/2 * u^2) by (apply Rmult_le_pos; lra). lra.
Qed.
Lemma mcp_pen_nonneg a g u : 0 <= a -> 0 < g -> 0 <= mcp_pen a g u.
Proof.
  intros Ha Hg. unfold mcp_pen. destruct (Rle_dec _ _) as [H|H].
  - rewrite <- (pow2_abs u). pose proof (Rabs_pos u) as Hp. set (x := Rabs u) in *.
    replace (a * x - x^2/(2*g)) with (x / (2*g) * (2 * (g * a) - x)) by (field; lra).
    apply Rmult_le_pos; [|lra]. unfold Rdiv. apply Rmult_le_pos; auto. left. apply Rinv_0_lt_compat. lra.
  - assert (0 <= g * a^2) by (apply Rmult_le_pos; [lra|apply pow2_ge_0]). lra.
Qed.
Lemma l05_pen_nonneg a u : 0 <= a -> 0 <= l05_pen a u.
Proof. intros. unfold l05_pen. apply Rmult_le_pos; auto. apply sqrt_pos. Qed.
Lemma abs_pen_0 a : abs_pen a 0 = 0.
Proof. unfold abs_pen. rewrite Rabs_R0. lra. Qed.
Lemma enet_pen_0 a r : enet_pen a r 0 = 0.
Proof. unfold enet_pen. rewrite Rabs_R0. field. Qed.
Lemma mcp_pen_0 a g : 0 <= a -> 0 < g -> mcp_pen a g 0 = 0.
Proof.
  intros. unfold mcp_pen. rewrite Rabs_R0. destruct (Rle_dec _ _) as [|n]; [field; lra|].
  exfalso. apply n. apply Rmult_le_pos; lra.
Qed.
Lemma l05_pen_0 a : l05_pen a 0 = 0.
Proof. unfold l05_pen. rewrite Rabs_R0, sqrt_0. lra. Qed.

(** MCP: constant beyond [gamma * alpha], continuous everywhere (Lipschitz with constant alpha) *)
Lemma mcp_pen_flat a g u : g * a <= Rabs u -> 0 < g -> mcp_pen a g u = g * a^2 / 2.
Proof.
  intros H Hg. unfold mcp_pen. destruct (Rle_dec _ _) as [H'|]; auto.
  rewrite <- (pow2_abs u). replace (Rabs u) with (g * a) by lra. field; lra.
Qed.
Lemma mcp_incr a g x y : 0 <= a -> 0 < g -> 0 <= x <= y -> 0 <= mcp_pen a g y - mcp_pen a g x <= a * (y - x).
Proof.
  intros Ha Hg [H1 H2]. unfold mcp_pen. rewrite !Rabs_pos_eq by lra.
  destruct (Rle_dec x (g*a)), (Rle_dec y (g*a)); try lra.
  - replace (a * y - y^2/(2*g) - (a * x - x^2/(2*g))) with ((y - x) * (2 * (g * a) - x - y) / (2 * g)) by (field; lra).
    split.
    + unfold Rdiv. apply Rmult_le_pos; [apply Rmult_le_pos; lra|]. left. apply Rinv_0_lt_compat. lra.
    + apply (Rmult_le_reg_r (2*g)); [lra|].
      replace ((y - x) * (2 * (g * a) - x - y) / (2 * g) * (2*g)) with ((y - x) * (2 * (g * a) - x - y)) by (field; lra).
      assert (0 <= (y - x) * (x + y)) by (apply Rmult_le_pos; lra). nra.
  - assert (E : g * a ^ 2 / 2 - (a * x - x ^ 2 / (2 * g)) = (g * a - x)^2 / (2*g)) by (field; lra). rewrite E.
    split.
    + unfold Rdiv. apply Rmult_le_pos; [apply pow2_ge_0|]. left. apply Rinv_0_lt_compat. lra.
    + apply (Rmult_le_reg_r (2*g)); [lra|]. replace ((g * a - x)^2 / (2*g) * (2*g)) with ((g*a - x)^2) by (field; lra).
      assert (0 <= (g * a - x) * (g * a + x)) by (apply Rmult_le_pos; lra).
      assert (0 <= g * a * (y - g * a)) by (apply Rmult_le_pos; lra). nra.
  - split; [lra|]. assert (0 <= a * (y - x)) by (apply Rmult_le_pos; lra). lra.
Qed.
Lemma mcp_pen_abs a g u : mcp_pen a g u = mcp_pen a g (Rabs u).
Proof. unfold mcp_pen. rewrite Rabs_Rabsolu, pow2_abs. reflexivity. Qed.
Lemma mcp_pen_lipschitz a g u v : 0 <= a -> 0 < g -> Rabs (mcp_pen a g u - mcp_pen a g v) <= a * Rabs (u - v).
Proof.
  intros Ha Hg. rewrite (mcp_pen_abs a g u), (mcp_pen_abs a g v).
  pose proof (Rabs_pos u). pose proof (Rabs_pos v).
  assert (H3 : Rabs (Rabs u - Rabs v) <= Rabs (u - v)) by apply Rabs_triang_inv2.
  destruct (Rle_dec (Rabs u) (Rabs v)).
  - pose proof (mcp_incr a g (Rabs u) (Rabs v) Ha Hg ltac:(lra)). rewrite Rabs_left1 by lra.
    rewrite (Rabs_left1 (Rabs u - Rabs v)) in H3 by lra.
    assert (a * (Rabs v - Rabs u) <= a * Rabs (u - v)) by (apply Rmult_le_compat_l; lra). lra.
  - pose proof (mcp_incr a g (Rabs v) (Rabs u) Ha Hg ltac:(lra)). rewrite Rabs_pos_eq by lra.
    rewrite (Rabs_pos_eq (Rabs u - Rabs v)) in H3 by lra.
    assert (a * (Rabs u - Rabs v) <= a * Rabs (u - v)) by (apply Rmult_le_compat_l; lra). lra.
Qed.

(** assembled *)
Lemma separable_values a r g w : 0 <= a -> 0 <= r <= 1 -> 0 < g ->
  (l1_value xops (L1 (Fin a)) (map Fin w) = Fin (Rsum (map (abs_pen a) w)) /\ 0 <= Rsum (map (abs_pen a) w)) /\
  (l1l2_value xops (L1PlusL2 (Fin a) (Fin r)) (map Fin w) = Fin (Rsum (map (enet_pen a r) w)) /\ 0 <= Rsum (map (enet_pen a r) w)) /\
  (mcp_value xops (MCP (Fin a) (Fin g)) (map Fin w) = Fin (Rsum (map (mcp_pen a g) w)) /\ 0 <= Rsum (map (mcp_pen a g) w)) /\
  (l05_value xops (L05 (Fin a)) (map Fin w) = Fin (Rsum (map (fun u => a * sqrt (Rabs u)) w)) /\ 0 <= Rsum (map (fun u => a * sqrt (Rabs u)) w)).
Proof.
  intros Ha Hr Hg.
  split; [split; [apply l1_value_fin|apply Rsum_nonneg; intros; apply abs_pen_nonneg; auto]|].
  split; [split; [apply l1l2_value_fin|apply Rsum_nonneg; intros; apply enet_pen_nonneg; auto]|].
  split; [split; [apply mcp_value_fin; auto|apply Rsum_nonneg; intros; apply mcp_pen_nonneg; auto]|].
  split; [apply l05_value_fin|apply Rsum_nonneg; intros; apply l05_pen_nonneg; auto].
Qed.
Lemma block_values a r g nr nc W : 0 <= a -> 0 <= r <= 1 -> 0 < g ->
  let M := Mat nr nc (map (map Fin) W) in
  (l21_value xops (L21 (Fin a)) M = Fin (Rsum (map (fun row => abs_pen a (norm2 row)) W)) /\ 0 <= Rsum (map (fun row => abs_pen a (norm2 row)) W)) /\
  (bl1l2_value xops (BlockL1PlusL2 (Fin a) (Fin r)) M = Fin (Rsum (map (fun row => enet_pen a r (norm2 row)) W)) /\ 0 <= Rsum (map (fun row => enet_pen a r (norm2 row)) W)) /\
  (bmcp_value xops (BlockMCP (Fin a) (Fin g)) M = Fin (Rsum (map (fun row => mcp_pen a g (norm2 row)) W)) /\ 0 <= Rsum (map (fun row => mcp_pen a g (norm2 row)) W)).
Proof.
  intros Ha Hr Hg M.
  split; [split; [apply l21_value_fin|apply Rsum_nonneg; intros; apply abs_pen_nonneg; auto]|].
  split; [split; [apply bl1l2_value_fin|apply Rsum_nonneg; intros; apply enet_pen_nonneg; auto]|].
  split; [apply bmcp_value_fin; auto|apply Rsum_nonneg; intros; apply mcp_pen_nonneg; auto].
Qed.
Lemma zero_values a r g n t : 0 <= a -> 0 <= r <= 1 -> 0 < g ->
  l1_value xops (L1 (Fin a)) (vzeros xops n) = Fin 0 /\
  l1l2_value xops (L1PlusL2 (Fin a) (Fin r)) (vzeros xops n) = Fin 0 /\
  mcp_value xops (MCP (Fin a) (Fin g)) (vzeros xops n) = Fin 0 /\
  l05_value xops (L05 (Fin a)) (vzeros xops n) = Fin 0 /\
  l21_value xops (L21 (Fin a)) (mzeros xops n t) = Fin 0 /\
  bl1l2_value xops (BlockL1PlusL2 (Fin a) (Fin r)) (mzeros xops n t) = Fin 0 /\
  bmcp_value xops (BlockMCP (Fin a) (Fin g)) (mzeros xops n t) = Fin 0.
Proof.
  intros Ha Hr Hg.
  assert (E : vzeros xops n = map Fin (repeat 0 n)).
  { unfold vzeros. simpl. induction n; simpl; congruence. }
  assert (E2 : mzeros xops n t = Mat n t (map (map Fin) (repeat (repeat 0 t) n))).
  { unfold mzeros, mfill. f_equal. rewrite map_repeat. f_equal. rewrite map_repeat. reflexivity. }
  rewrite E, E2.
  rewrite l1_value_fin, l1l2_value_fin, mcp_value_fin, l05_value_fin, l21_value_fin, bl1l2_value_fin, bmcp_value_fin by auto.
  repeat split; f_equal; apply Rsum_repeat0; rewrite ?norm2_0;
  first [apply abs_pen_0|apply enet_pen_0|apply mcp_pen_0; auto|apply l05_pen_0].
Qed.
Lemma mcp_flat_cont a g : 0 <= a -> 0 < g ->
  (forall u, g * a <= Rabs u -> mcp_pen1 xops (MCP (Fin a) (Fin g)) (Fin u) = Fin (g * a ^ 2 / 2)) /\
  (forall u v, exists x y, mcp_pen1 xops (MCP (Fin a) (Fin g)) (Fin u) = Fin x /\
     mcp_pen1 xops (MCP (Fin a) (Fin g)) (Fin v) = Fin y /\ Rabs (x - y) <= a * Rabs (u - v)).
Proof.
  intros Ha Hg. split.
  - intros u Hu. rewrite mcp_pen1_fin, mcp_pen_flat; auto.
  - intros u v. exists (mcp_pen a g u), (mcp_pen a g v). rewrite !mcp_pen1_fin by auto.
    split; [reflexivity|]. split; [reflexivity|]. apply mcp_pen_lipschitz; auto.
Qed.
Lemma ex_c42 : 0 <= 2 /\ 0 <= 1/2 <= 1 /\ 0 < 3 /\
  mcp_value xops (MCP (Fin 2) (Fin 3)) (map Fin [1; -7]) = Fin (11/6 + 6).
Proof.
  repeat (split; [lra|]). rewrite mcp_value_fin by lra. f_equal. cbn. unfold mcp_pen.
  rewrite (Rabs_right 1), (Rabs_left (-7)) by lra.
  destruct (Rle_dec 1 (3*2)); [|lra]. destruct (Rle_dec (- -7) (3*2)); lra.
Qed.
