(** Symmetries of the problems: row order, column signs, one task. *)
From Coq Require Import List ZArith Bool Arith Reals Lra Lia Permutation.
From Verif Require Import Ops Arr XR SpecPen VecR MUtils MDatasets MDatafits MDatafitsMT MPenalties MBlockPenalties PProx PProxBlock PSubdiff PSubdiffBlock PBase RSum SpecLin SpecData SpecSym PData PDatafit PDataProps SpecSolve PNoPanic PLaws PRef PRefCD PRefBCD PRefPen PSim PFit.
Import ListNotations.
Open Scope R_scope.

(** *** penalties are even *)
Record pen_sym (T : nat) (prox : list R -> R -> list R) (pv : list R -> R) (dist : list R -> list R -> R) : Prop := {
  ps_len : forall v s, length v = T -> 0 < s -> length (prox v s) = T;
  ps_prox : forall v s, length v = T -> 0 < s -> prox (vscale (-1) v) s = vscale (-1) (prox v s);
  ps_pv : forall v, length v = T -> pv (vscale (-1) v) = pv v;
  ps_dist : forall w g, length w = T -> length g = T -> dist (vscale (-1) w) (vscale (-1) g) = dist w g
}.
Lemma sym1 (prox : R -> R -> R) pv dist : (forall x s, 0 < s -> prox (- x) s = - prox x s) -> (forall x, pv (- x) = pv x) -> (forall w g, dist (- w) (- g) = dist w g) ->
  pen_sym 1 (lprox prox) (lpv pv) (ldist dist).
Proof.
  intros H1 H2 H3. constructor.
  - intros v s Hv _. unfold lprox. rewrite map_length. auto.
  - intros v s Hv Hs. destruct (len1 v Hv) as (x & ->). simpl. replace (-1 * x) with (- x) by ring. rewrite H1 by auto. f_equal. ring.
  - intros v Hv. destruct (len1 v Hv) as (x & ->). unfold lpv. simpl. replace (-1 * x) with (- x) by ring. auto.
  - intros w g Hw Hg. destruct (len1 w Hw) as (x & ->), (len1 g Hg) as (h & ->). unfold ldist. simpl.
    replace (-1 * x) with (- x) by ring. replace (-1 * h) with (- h) by ring. auto.
Qed.
Lemma rsoft_odd x t : 0 <= t -> rsoft (- x) t = - rsoft x t.
Proof. intros Ht. unfold rsoft. repeat rcase; lra. Qed.
Lemma rsign_odd x : x <> 0 -> rsign (- x) = - rsign x.
Proof. intros Hx. unfold rsign. repeat rcase; lra. Qed.
Lemma Reqb_opp x : Reqb (- x) 0 = Reqb x 0.
Proof. destruct (Reqb x 0) eqn:E; rb; [apply Reqb_spec; lra|apply Reqb_false; lra]. Qed.
Lemma l1_sym a : 0 <= a -> pen_sym 1 (lprox (fun v s => rsoft v (a * s))) (lpv (abs_pen a)) (ldist (r_l1_score a)).
Proof.
  intros Ha. apply sym1.
  - intros x s Hs. apply rsoft_odd. nra.
  - intros x. unfold abs_pen. rewrite Rabs_Ropp. auto.
  - intros w g. unfold r_l1_score. rewrite Reqb_opp, Rabs_Ropp. destruct (Reqb w 0) eqn:E; rb; auto.
    rewrite rsign_odd by auto. rewrite <- Rabs_Ropp. f_equal. ring.
Qed.
Lemma l1l2_sym a r : 0 <= a -> 0 <= r <= 1 -> pen_sym 1 (lprox (enet_prox a r)) (lpv (enet_pen a r)) (ldist (r_l1l2_score a r)).
Proof.
  intros Ha Hr. apply sym1.
  - intros x s Hs. unfold enet_prox. rewrite rsoft_odd; [unfold Rdiv; ring|]. apply Rmult_le_pos; nra.
  - intros x. unfold enet_pen. rewrite Rabs_Ropp. do 3 f_equal. ring.
  - intros w g. unfold r_l1l2_score. rewrite Reqb_opp, Rabs_Ropp. destruct (Reqb w 0) eqn:E; rb; auto.
    rewrite rsign_odd by auto. rewrite <- Rabs_Ropp. f_equal. ring.
Qed.
Lemma mcp_sym a g : 0 <= a -> 0 < g -> pen_sym 1 (lprox (fun v s => rmcp_prox a g s v)) (lpv (mcp_pen a g)) (ldist (r_mcp_score a g)).
Proof.
  intros Ha Hg. apply sym1.
  - intros x s Hs. unfold rmcp_prox. rewrite Rabs_Ropp. destruct (Rleb (Rabs x) (a * s)) eqn:E; [ring|]. rb.
    destruct (Rltb _ (Rabs x)); auto. assert (x <> 0) by (intros ->; rewrite Rabs_R0 in E; nra).
    destruct (Rltb (- x) 0) eqn:E1, (Rltb x 0) eqn:E2; rb; try lra; unfold Rdiv; ring.
  - intros x. unfold mcp_pen. rewrite Rabs_Ropp. replace ((- x) ^ 2) with (x ^ 2) by ring. auto.
  - intros w h. unfold r_mcp_score. rewrite Reqb_opp, !Rabs_Ropp. destruct (Reqb w 0) eqn:E; rb; auto.
    rewrite rsign_odd by auto. destruct (Rltb _ _); auto. rewrite <- Rabs_Ropp. f_equal. field. lra.
Qed.
Lemma norm2_m1 v : norm2 (vscale (-1) v) = norm2 v.
Proof. rewrite norm2_scale. replace (Rabs (-1)) with 1; [ring|]. unfold Rabs. destruct (Rcase_abs _); lra. Qed.
Lemma vneg_scale v : vneg v = vscale (-1) v.
Proof. apply map_ext. intros. ring. Qed.
Lemma vscale_vscale c e v : vscale c (vscale e v) = vscale (c * e) v.
Proof. unfold vscale. rewrite map_map. apply map_ext. intros. ring. Qed.
Lemma vminus_scale e a : forall b, vminus (vscale e a) (vscale e b) = vscale e (vminus a b).
Proof. induction a as [|x a IH]; intros [|y b]; simpl; auto. rewrite IH. f_equal. ring. Qed.
Lemma norm_resid_m1 c w g : norm2 (vminus (vneg (vscale (-1) g)) (vscale c (vscale (-1) w))) = norm2 (vminus (vneg g) (vscale c w)).
Proof.
  rewrite !vneg_scale, !vscale_vscale. rewrite <- (norm2_m1 (vminus (vscale (-1) g) (vscale c w))). rewrite <- vminus_scale, !vscale_vscale.
  do 2 f_equal. f_equal. ring.
Qed.
Lemma prox_unique T c h u u' : 0 < c -> vstrong_min T c h u -> vstrong_min T c h u' -> u = u'.
Proof.
  intros Hc [H1 H2] [H1' H2']. assert (A := H2 u' H1'). assert (B := H2' u H1).
  assert (N : norm2 (vminus u' u) = 0).
  { pose proof (norm2_pos (vminus u' u)). assert (0 <= norm2 (vminus u u') ^ 2) by (apply pow2_ge_0).
    set (N := norm2 (vminus u' u)) in *. set (M := norm2 (vminus u u')) in *. assert (c * (N ^ 2 + M ^ 2) <= 0) by lra.
    assert (N ^ 2 <= 0) by (assert (0 <= N ^ 2) by (apply pow2_ge_0); nra). nra. }
  apply norm2_0_inv in N. rewrite vminus_length in N by congruence. rewrite H1' in N. clear - N H1 H1'.
  revert u u' H1 H1' N. induction T as [|T IH]; intros [|x u] [|x' u'] H1 H1' N; simpl in *; try discriminate; auto.
  injection N as N0 N. f_equal; [lra|]. apply IH; auto.
Qed.
Lemma vstrong_min_m1 T c h h' u : (forall x, length x = T -> h' (vscale (-1) x) = h x) -> vstrong_min T c h u -> vstrong_min T c h' (vscale (-1) u).
Proof.
  intros E [H1 H2]. split; [rewrite vscale_length; auto|]. intros x Hx. rewrite E by auto.
  assert (Ex : x = vscale (-1) (vscale (-1) x)) by (rewrite vscale_vscale; replace (-1 * -1) with 1 by ring; symmetry; apply vscale1).
  rewrite Ex. rewrite vminus_scale, norm2_m1, E by (rewrite vscale_length; auto). apply H2. rewrite vscale_length; auto.
Qed.
Lemma theory_odd T prox pv c v s : pen_theory T prox pv (fun s => 0 < s) c -> (forall s, 0 < s -> 0 < c s) -> (forall v, length v = T -> pv (vscale (-1) v) = pv v) ->
  length v = T -> 0 < s -> prox (vscale (-1) v) s = vscale (-1) (prox v s).
Proof.
  intros HT Hc He Hv Hs. apply (prox_unique T (c s) (fun x => norm2 (vminus x (vscale (-1) v)) ^ 2 / 2 + s * pv x)); auto.
  - apply (pt_min _ _ _ _ _ HT); auto. rewrite vscale_length; auto.
  - apply (vstrong_min_m1 T _ (fun x => norm2 (vminus x v) ^ 2 / 2 + s * pv x)); [|apply (pt_min _ _ _ _ _ HT); auto].
    intros x Hx. rewrite vminus_scale, norm2_m1, He by auto. auto.
Qed.
Lemma l21_sym T a : 0 < a -> pen_sym T (bprox (l21_penalty xops) (L21 (Fin a))) (npv (abs_pen a)) (r_l21_score a).
Proof.
  intros Ha. constructor.
  - intros v s Hv Hs. apply (bo_prox _ _ _ _ _ _ _ (l21_pen_ok T a Ha)); auto.
  - intros v s Hv Hs. apply (theory_odd T _ (npv (abs_pen a)) (fun _ => 1)); auto; try (intros; lra).
    + apply l21_theory; auto.
    + intros u _. unfold npv. rewrite norm2_m1. auto.
  - intros v _. unfold npv. rewrite norm2_m1. auto.
  - intros w g _ _. unfold r_l21_score. rewrite !norm2_m1, norm_resid_m1. auto.
Qed.
Lemma bl1l2_sym T a r : 0 <= a -> 0 <= r <= 1 -> 0 < a * r ->
  pen_sym T (bprox (bl1l2_penalty xops) (BlockL1PlusL2 (Fin a) (Fin r))) (npv (enet_pen a r)) (r_bl1l2_score a r).
Proof.
  intros Ha Hr Har. constructor.
  - intros v s Hv Hs. apply (bo_prox _ _ _ _ _ _ _ (bl1l2_pen_ok T a r Ha Hr Har)); auto.
  - intros v s Hv Hs. apply (theory_odd T _ (npv (enet_pen a r)) (fun s => 1 + s * (1 - r) * a)); auto.
    + apply bl1l2_theory; auto.
    + intros u Hu. assert (0 <= u * (1 - r)) by nra. nra.
    + intros u _. unfold npv. rewrite norm2_m1. auto.
  - intros v _. unfold npv. rewrite norm2_m1. auto.
  - intros w g _ _. unfold r_bl1l2_score. rewrite !norm2_m1, norm_resid_m1. auto.
Qed.
Lemma bmcp_sym T a g : 0 <= a -> 0 < g ->
  pen_sym T (bprox (bmcp_penalty xops) (BlockMCP (Fin a) (Fin g))) (npv (mcp_pen a g)) (r_bmcp_score a g).
Proof.
  intros Ha Hg. constructor.
  - intros v s Hv Hs. apply (bo_prox _ _ _ _ _ _ _ (bmcp_pen_ok T a g Ha Hg)); auto.
  - intros v s Hv Hs. unfold bprox. cbn [bpen_prox bmcp_penalty]. unfold bmcp_prox, rownorm. cbn [ndot fsqrt xops]. cbv zeta.
    rewrite !xdot_dotp, !xsqrt_norm, norm2_m1. cbn [bmcp_alpha bmcp_gamma fmul fdiv xops]. rewrite xdiv_fin by lra. cbn [fle flt fmul xops xmul xle xlt].
    destruct (Rleb (norm2 v) (a * s)) eqn:E1; [|destruct (Rltb _ _) eqn:E2]; rb.
    + unfold vzeros. rewrite !map_length, vscale_length. unfold vscale. rewrite !map_map. cbn [f0 xops toR].
      rewrite !repeat_tab, !map_tab. apply tab_ext. intros. simpl. ring.
    + rewrite !toR_Fin. auto.
    + unfold vscale. rewrite !map_map. apply map_ext. intros x. cbn [f1 fsub fdiv fmul xops].
      assert (H0 : norm2 v <> 0) by nra. rewrite xdiv_fin by auto. cbn [xsub xmul].
      assert (Hgs : g / s <> 0) by (apply Rgt_not_eq, Rmult_lt_0_compat; [|apply Rinv_0_lt_compat]; auto).
      rewrite xdiv_fin by auto. cbn [xsub].
      assert (Hne : 1 - 1 / (g / s) <> 0).
      { replace (g / s * (a * s)) with (g * a) in E2 by (field; lra). assert (s < g) by nra.
        replace (1 - 1 / (g / s)) with ((g - s) / g) by (field; lra). apply Rgt_not_eq. apply Rmult_lt_0_compat; [lra|apply Rinv_0_lt_compat; lra]. }
      rewrite !xdiv_fin by auto. cbn [toR]. unfold Rdiv. ring.
  - intros v _. unfold npv. rewrite norm2_m1. auto.
  - intros w h _ _. unfold r_bmcp_score. rewrite !norm2_m1. destruct (Reqb (norm2 w) 0), (Rltb (norm2 w) (a * g)); auto.
    rewrite vscale_vscale, Rmult_comm, <- vscale_vscale. apply norm2_m1.
Qed.

(** *** row order and column signs *)
Lemma Sum_reorder n s f : row_perm n s -> Sum n (fun i => f (s i)) = Sum n f.
Proof. intros H. rewrite <- (Sum_perm n _ f H). unfold Sum, tab. rewrite map_map. reflexivity. Qed.
Lemma row_perm_lt n s i : row_perm n s -> (i < n)%nat -> (s i < n)%nat.
Proof. intros H Hi. assert (In (s i) (seq 0 n)); [|rewrite in_seq in *; lia]. eapply Permutation_in; [exact H|]. apply in_map, in_seq. lia. Qed.

Section Flip.
Variables (n p T : nat) (X X' : rmat) (sg : nat -> nat) (s : nat -> R).
Hypotheses (Hn : (1 <= n)%nat) (Hsg : row_perm n sg) (Hs : forall j, (j < p)%nat -> s j = 1 \/ s j = -1)
  (HX : forall i j, (i < n)%nat -> (j < p)%nat -> X' i j = s j * X (sg i) j).
Definition relZ (Z Z' : rmat) : Prop := forall i t, (i < n)%nat -> (t < T)%nat -> Z' i t = Z (sg i) t.
Lemma s_sq j : (j < p)%nat -> s j * s j = 1.
Proof. intros Hj. destruct (Hs j Hj) as [-> | ->]; ring. Qed.
Lemma s_abs j : (j < p)%nat -> Rabs (s j) = 1.
Proof. intros Hj. destruct (Hs j Hj) as [-> | ->]; unfold Rabs; destruct (Rcase_abs _); lra. Qed.
Lemma flip_sim f f' g g' L L' prox pv dist :
  (forall Z Z', relZ Z Z' -> f' Z' = f Z) -> (forall Z Z' j t, relZ Z Z' -> (j < p)%nat -> (t < T)%nat -> g' Z' j t = s j * g Z j t) ->
  (forall j, (j < p)%nat -> L' j = L j) -> (forall j, (j < p)%nat -> 0 <= L j) -> pen_sym T prox pv dist ->
  sim (Problem n p T X f g L prox pv dist) (Problem n p T X' f' g' L' prox pv dist) s relZ.
Proof.
  intros Hf Hg HL HL0 HP. constructor; cbn [pn pp pT pX pf pg pL pprox ppv pdist]; auto.
  - intros i t _ _. reflexivity.
  - intros Z Z' j c c' HZ Hj Hc i t Hi Ht. rewrite HZ, Hc, HX by auto.
    replace (s j * c t * (s j * X (sg i) j)) with (s j * s j * (c t * X (sg i) j)) by ring. rewrite s_sq by auto. ring.
  - intros V V' ws HV Hin i t Hi Ht. unfold rfit. cbn [pX]. f_equal. apply map_ext_in. intros j Hj. rewrite HX, HV by auto.
    replace (s j * X (sg i) j * (s j * V j t)) with (s j * s j * (X (sg i) j * V j t)) by ring. rewrite s_sq by auto. ring.
  - intros v j Hv Hj HL1. assert (0 < 1 / L j) by (apply inv_step_pos; auto). split; [|apply (ps_len _ _ _ _ HP); auto].
    destruct (Hs j Hj) as [-> | ->]; [rewrite !vscale1; auto|]. apply (ps_prox _ _ _ _ HP); auto.
  - intros v j Hv Hj. destruct (Hs j Hj) as [-> | ->]; [rewrite !vscale1; auto|]. apply (ps_pv _ _ _ _ HP); auto.
  - intros v h j Hv Hh Hj. destruct (Hs j Hj) as [-> | ->]; [rewrite !vscale1; auto|]. apply (ps_dist _ _ _ _ HP); auto.
Qed.
Lemma flip_L c j : (j < p)%nat -> Sum n (fun i => X' i j * X' i j) / c = Sum n (fun i => X i j * X i j) / c.
Proof.
  intros Hj. f_equal. rewrite <- (Sum_reorder n sg (fun i => X i j * X i j)) by auto. apply Sum_ext. intros i Hi. rewrite HX by auto.
  replace (s j * X (sg i) j * (s j * X (sg i) j)) with (s j * s j * (X (sg i) j * X (sg i) j)) by ring. rewrite s_sq by auto. ring.
Qed.
Section Quad.
Variables (Y Y' : rmat).
Hypothesis HY : forall i t, (i < n)%nat -> (t < T)%nat -> Y' i t = Y (sg i) t.
Lemma flip_f Z Z' : relZ Z Z' -> quad_loss_mt n T Y' Z' = quad_loss_mt n T Y Z.
Proof.
  intros HZ. unfold quad_loss_mt. f_equal. rewrite <- (Sum_reorder n sg (fun i => Sum T (fun t => (Y i t - Z i t) ^ 2))) by auto. apply Sum_ext. intros i Hi. apply Sum_ext. intros t Ht. rewrite HZ, HY by auto. auto.
Qed.
Lemma flip_g Z Z' j t : relZ Z Z' -> (j < p)%nat -> (t < T)%nat -> gq n X' Y' Z' j t = s j * gq n X Y Z j t.
Proof.
  intros HZ Hj Ht. unfold gq. rewrite <- (Sum_reorder n sg (fun i => X i j * Z i t)), <- (Sum_reorder n sg (fun i => X i j * Y i t)) by auto.
  rewrite (Sum_ext n (fun i => X' i j * Z' i t) (fun i => s j * (X (sg i) j * Z (sg i) t))) by (intros i Hi; rewrite HX, HZ by auto; ring).
  rewrite (Sum_ext n (fun i => X' i j * Y' i t) (fun i => s j * (X (sg i) j * Y (sg i) t))) by (intros i Hi; rewrite HX, HY by auto; ring).
  rewrite !Sum_scal. unfold Rdiv. ring.
Qed.
Lemma flip_mt prox pv dist : pen_sym T prox pv dist -> sim (mtP n p T X Y prox pv dist) (mtP n p T X' Y' prox pv dist) s relZ.
Proof.
  intros HP. apply flip_sim; auto.
  - intros. apply flip_f; auto.
  - intros. apply flip_g; auto.
  - intros. unfold Lq. apply flip_L; auto.
  - intros. apply Lq_nonneg; auto.
Qed.
End Quad.
End Flip.
Section Flip1.
Variables (n p : nat) (X X' : rmat) (sg : nat -> nat) (s : nat -> R) (y y' : nat -> R).
Hypotheses (Hn : (1 <= n)%nat) (Hsg : row_perm n sg) (Hs : forall j, (j < p)%nat -> s j = 1 \/ s j = -1)
  (HX : forall i j, (i < n)%nat -> (j < p)%nat -> X' i j = s j * X (sg i) j) (Hy : forall i, (i < n)%nat -> y' i = y (sg i)).
Variables (prox : R -> R -> R) (pv : R -> R) (dist : R -> R -> R).
Hypothesis HP : pen_sym 1 (lprox prox) (lpv pv) (ldist dist).
Lemma flip_quad : sim (quadP n p X y prox pv dist) (quadP n p X' y' prox pv dist) s (relZ n 1 sg).
Proof. apply (flip_mt n p 1 X X' sg s Hn Hsg Hs HX (fun i _ => y i) (fun i _ => y' i)); auto. Qed.
Lemma flip_log : sim (logP n p X y prox pv dist) (logP n p X' y' prox pv dist) s (relZ n 1 sg).
Proof.
  apply (flip_sim n p 1 X X' sg s Hs HX); auto.
  - intros Z Z' HZ. unfold logloss, logistic_loss. f_equal. rewrite <- (Sum_reorder n sg (fun i => ln (1 + exp (- (y i * Z i 0%nat))))) by auto. apply Sum_ext. intros i Hi. rewrite HZ, Hy by auto. auto.
  - intros Z Z' j t HZ Hj Ht. unfold glT, gl. rewrite <- (Sum_reorder n sg (fun i => X i j * (y i * sig (- y i * Z i 0%nat)))) by auto.
    rewrite (Sum_ext n _ (fun i => s j * (X (sg i) j * (y (sg i) * sig (- y (sg i) * Z (sg i) 0%nat))))) by (intros i Hi; rewrite HX, HZ, Hy by auto; ring).
    rewrite Sum_scal. unfold Rdiv. ring.
  - intros. unfold Ll. apply flip_L with (p := p) (s := s) (sg := sg); auto.
  - intros. apply Ll_nonneg; auto.
Qed.
End Flip1.

(** *** one task *)
Lemma vdist_unique S z d d' : is_vdist S z d -> is_vdist S z d' -> d = d'.
Proof. intros [H1 (s & H2 & H3)] [H1' (s' & H2' & H3')]. specialize (H1 s' H2'). specialize (H1' s H2). lra. Qed.
Lemma one_task_sim n p X y a : 0 < a -> (1 <= n)%nat ->
  sim (quadP n p X y (fun v s => rsoft v (a * s)) (abs_pen a) (r_l1_score a))
      (mtP n p 1 X (fun i _ => y i) (bprox (l21_penalty xops) (L21 (Fin a))) (npv (abs_pen a)) (r_l21_score a)) (fun _ => 1)
      (fun Z Z' => forall i t, (i < n)%nat -> (t < 1)%nat -> Z' i t = Z i t).
Proof.
  intros Ha Hn.
  assert (Epv : forall v, length v = 1%nat -> npv (abs_pen a) v = lpv (abs_pen a) v).
  { intros v Hv. destruct (len1 v Hv) as (x & ->). unfold npv, lpv, abs_pen. rewrite norm2_1, Rabs_Rabsolu. auto. }
  constructor; cbn [quadP single_problem mtP pn pp pT pX pf pg pL pprox ppv pdist]; auto.
  - intros Z Z' j c c' HZ Hj Hc i t Hi Ht. rewrite HZ, Hc by auto. ring.
  - intros V V' ws HV Hin i t Hi Ht. unfold rfit. cbn [pX]. f_equal. apply map_ext_in. intros j Hj. rewrite HV by (cbn; auto). cbn. ring.
  - intros Z Z' HZ. unfold quad_loss_mt. f_equal. apply Sum_ext. intros i Hi. apply Sum_ext. intros t Ht. rewrite HZ by auto. auto.
  - intros Z Z' j t HZ Hj Ht. unfold gq. rewrite Rmult_1_l. do 2 f_equal. apply Sum_ext. intros i Hi. rewrite HZ by auto. auto.
  - intros v j Hv Hj HL. rewrite !vscale1. assert (Hs : 0 < 1 / Lq n X j) by (apply inv_step_pos; auto; apply Lq_nonneg; auto).
    split; [|rewrite map_length; auto].
    apply (prox_unique 1 1 (fun x => norm2 (vminus x v) ^ 2 / 2 + 1 / Lq n X j * npv (abs_pen a) x)); [lra| |].
    + apply (pt_min _ _ _ _ _ (l21_theory 1 a Ha)); auto.
    + destruct (pt_min _ _ _ _ _ (l1_theory a (Rlt_le _ _ Ha)) v (1 / Lq n X j) Hv Hs) as [A B]. split; auto. intros x Hx. rewrite !Epv by auto. apply B; auto.
  - intros v j Hv _. rewrite vscale1. apply Epv; auto.
  - intros v h j Hv Hh _. rewrite !vscale1. apply (vdist_unique (vsubgrad 1 (npv (abs_pen a)) v) (vneg h)).
    + apply l21_scores; auto; lra.
    + destruct (l1_scores a (Rlt_le _ _ Ha) v h Hv Hh) as [A (s & B & C)].
      assert (Q : forall s, vsubgrad 1 (npv (abs_pen a)) v s <-> vsubgrad 1 (lpv (abs_pen a)) v s).
      { intros s'. unfold vsubgrad. split; intros [H1 (m & Hm & Hq)]; split; auto; exists m; split; auto; intros x Hx; specialize (Hq x Hx);
          rewrite !Epv in * by auto; auto. }
      split; [intros s' Hs'; apply A, Q; auto|exists s; split; [apply Q; auto|auto]].
Qed.
