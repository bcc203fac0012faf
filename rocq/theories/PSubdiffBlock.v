(** Proofs: block scores versus distances to subdifferentials. *)
From Coq Require Import List ZArith Bool Arith Reals Lra Lia Psatz.
From Verif Require Import Ops Arr XR SpecPen VecR MUtils MPenalties MBlockPenalties PProx PSubdiff.
Import ListNotations.
Open Scope R_scope.

Definition vneg (v : list R) : list R := map Ropp v.
Lemma vneg_length v : length (vneg v) = length v.
Proof. apply map_length. Qed.

Lemma vplus_exists w h : length w = length h -> exists x, length x = length w /\ vminus x w = h.
Proof.
  revert h. induction w as [|a w IH]; intros [|b h] H; simpl in *; try discriminate.
  - exists []. auto.
  - destruct (IH h) as (x & Hl & Hx); [lia|]. exists ((a + b) :: x). simpl. split; [lia|].
    rewrite Hx. f_equal. ring.
Qed.

Lemma vsubgrad_unique n phi w q s : length w = n -> length q = n -> vsubgrad n phi w s ->
  (exists M, 0 <= M /\ forall x, length x = n ->
     phi x <= phi w + dotp q (vminus x w) + M * dotp (vminus x w) (vminus x w)) ->
  norm2 (vminus s q) = 0.
Proof.
  intros Hw Hq (Hsl & m & Hm & Hs) (M & HM & Hu).
  set (D := dotp (vminus s q) (vminus s q)).
  assert (HD : 0 <= D) by apply dotp_pos.
  set (e := 1 / (2 * (m + M + 1))).
  assert (He : 0 < e) by (apply Rmult_lt_0_compat; [lra|apply Rinv_0_lt_compat; lra]).
  assert (He2 : e * (2 * (m + M + 1)) = 1) by (unfold e; field; lra).
  destruct (vplus_exists w (vscale e (vminus s q))) as (x & Hxl & Hx).
  { rewrite vscale_length, vminus_length; lia. }
  specialize (Hs x ltac:(lia)). specialize (Hu x ltac:(lia)). rewrite Hx in *.
  rewrite !dotp_scale_l, !dotp_scale_r in *. fold D in Hs, Hu.
  rewrite (dotp_minus_r s) in Hs by lia. rewrite (dotp_minus_r q) in Hu by lia.
  assert (ED : D = (dotp s s - dotp s q) - (dotp q s - dotp q q)).
  { unfold D. rewrite dotp_minus_l, !dotp_minus_r by lia. ring. }
  assert (e * D <= (m + M) * (e * (e * D))) by nra.
  assert ((m + M) * (e * (e * D)) <= e * D / 2).
  { assert (0 <= e * D) by nra. assert ((m + M) * e <= 1 / 2) by nra. nra. }
  assert (e * D <= 0) by lra.
  assert (D = 0) by nra.
  unfold norm2. fold D. rewrite H2. apply sqrt_0.
Qed.

Lemma vminus_self_norm a b : length a = length b -> norm2 (vminus a b) = 0 -> a = b.
Proof.
  revert b. induction a as [|x a IH]; intros [|y b] H H0; simpl in *; try discriminate; auto.
  apply norm2_0_inv in H0. simpl in H0. injection H0 as H1 H2.
  f_equal; [lra|]. apply IH; [lia|]. rewrite H2. apply norm2_0.
Qed.

Lemma vdist_smooth n phi w q z : length w = n -> length q = n ->
  (exists m, 0 <= m /\ forall x, length x = n ->
     phi w + dotp q (vminus x w) - m * dotp (vminus x w) (vminus x w) <= phi x) ->
  (exists M, 0 <= M /\ forall x, length x = n ->
     phi x <= phi w + dotp q (vminus x w) + M * dotp (vminus x w) (vminus x w)) ->
  is_vdist (vsubgrad n phi w) z (norm2 (vminus z q)).
Proof.
  intros Hw Hq Hl Hu. split.
  - intros s Hs. assert (Hs' := Hs). destruct Hs' as [Hsl _].
    pose proof (vsubgrad_unique n phi w q s Hw Hq Hs Hu) as H0.
    apply vminus_self_norm in H0; [|lia]. subst. lra.
  - exists q. split; auto. split; auto.
Qed.

(** subdifferential at zero of a function which behaves like [a * norm] near zero *)
Lemma vdist_zero n phi a z : length z = n -> 0 <= a -> phi (repeat 0 n) = 0 ->
  (exists m, 0 <= m /\ forall x, length x = n -> a * norm2 x - m * dotp x x <= phi x) ->
  (exists M d, 0 <= M /\ 0 < d /\ forall x, length x = n -> norm2 x < d ->
       phi x <= a * norm2 x + M * dotp x x) ->
  is_vdist (vsubgrad n phi (repeat 0 n)) z (Rmax 0 (norm2 z - a)).
Proof.
  intros Hz Ha H0 (m & Hm & Hl) (M & d & HM & Hd & Hu).
  assert (Hm0 : forall x, length x = n -> vminus x (repeat 0 n) = x).
  { clear. induction n; intros [|y x] H; simpl in *; try discriminate; auto.
    rewrite IHn by lia. f_equal. ring. }
  assert (Hin : forall s, length s = n -> norm2 s <= a -> vsubgrad n phi (repeat 0 n) s).
  { intros s Hsl Hs. split; auto. exists m. split; auto. intros x Hx. rewrite H0, Hm0 by auto.
    specialize (Hl x Hx). pose proof (cauchy_schwarz s x). pose proof (norm2_pos x). nra. }
  split.
  - intros s (Hsl & m' & Hm' & Hs).
    assert (Hb : norm2 s <= a).
    { apply Rnot_lt_le. intro Hlt.
      set (D := norm2 s - a). assert (HD : 0 < D) by (unfold D; lra).
      assert (Hns : 0 < norm2 s) by lra.
      set (eps := Rmin (d / 2) (D / (2 * (m' + M + 1)))).
      assert (He : 0 < eps).
      { unfold eps. apply Rmin_pos; [lra|]. apply Rmult_lt_0_compat; auto. apply Rinv_0_lt_compat. lra. }
      assert (He1 : eps <= d / 2) by apply Rmin_l.
      assert (He2 : eps * (2 * (m' + M + 1)) <= D).
      { apply Rmult_le_reg_r with (/ (2 * (m' + M + 1))); [apply Rinv_0_lt_compat; lra|].
        rewrite Rmult_assoc, Rinv_r by lra. rewrite Rmult_1_r. apply Rmin_r. }
      set (x := vscale (eps / norm2 s) s).
      assert (Hxl : length x = n) by (unfold x; rewrite vscale_length; auto).
      assert (Hen : 0 < eps / norm2 s) by (apply Rmult_lt_0_compat; [lra|apply Rinv_0_lt_compat; lra]).
      assert (Hxn : norm2 x = eps).
      { unfold x. rewrite norm2_scale, Rabs_right by lra. field. lra. }
      specialize (Hs x Hxl). specialize (Hu x Hxl ltac:(lra)).
      rewrite H0, Hm0 in Hs by auto.
      assert (Hxx : dotp x x = eps ^ 2) by (rewrite <- norm2_sq, Hxn; auto).
      assert (Hsx : dotp s x = norm2 s * eps).
      { unfold x. rewrite dotp_scale_r, <- norm2_sq. field. lra. }
      rewrite Hxx, Hsx in Hs. rewrite Hxx, Hxn in Hu. unfold D in *. nra. }
    apply Rmax_lub; [apply norm2_pos|].
    pose proof (norm2_triang z s ltac:(lia)). lra.
  - destruct (Rle_dec (norm2 z) a) as [Hle|Hgt].
    + exists z. split; [apply Hin; auto|]. rewrite Rmax_left by lra.
      unfold norm2. rewrite dotp_minus_l, !dotp_minus_r by auto.
      replace (dotp z z - dotp z z - (dotp z z - dotp z z)) with 0 by ring. apply sqrt_0.
    + rewrite Rmax_right by lra. assert (Hn : 0 < norm2 z) by lra.
      exists (vscale (a / norm2 z) z).
      assert (0 <= a / norm2 z) by (apply Rmult_le_pos; [lra|left; apply Rinv_0_lt_compat; lra]).
      split.
      * apply Hin; [rewrite vscale_length; auto|]. rewrite norm2_scale, Rabs_right by lra.
        right. field. lra.
      * assert (E : vminus z (vscale (a / norm2 z) z) = vscale (1 - a / norm2 z) z).
        { generalize (a / norm2 z). intros c. clear. unfold vscale.
          induction z; simpl; auto. rewrite IHz. f_equal. ring. }
        rewrite E, norm2_scale, Rabs_right.
        -- field. lra.
        -- assert (a / norm2 z <= 1).
           { apply Rmult_le_reg_r with (norm2 z); auto. unfold Rdiv. rewrite Rmult_assoc, Rinv_l; lra. }
           lra.
Qed.

(** *** finite evaluation of the scores *)
Lemma any_nonzero_fin w : any_nonzero xops (map Fin w) = negb (Reqb (norm2 w) 0).
Proof.
  destruct (Reqb (norm2 w) 0) eqn:E; rb; simpl.
  - apply norm2_0_inv in E. rewrite E. clear. unfold any_nonzero.
    induction (length w); simpl; auto. rewrite Reqb_refl. auto.
  - unfold any_nonzero.
    destruct (existsb (fun x => negb (feq xops x (f0 xops))) (map Fin w)) eqn:X; auto.
    exfalso. apply E.
    assert (w = repeat 0 (length w)).
    { clear E. induction w as [|x w IH]; simpl in *; auto. apply orb_false_iff in X as [X1 X2].
      apply negb_false_iff in X1. rb. f_equal; auto. }
    rewrite H. apply norm2_0.
Qed.
Lemma rownorm_fin v : rownorm xops (map Fin v) = Fin (norm2 v).
Proof. unfold rownorm. cbn [ndot fsqrt xops]. rewrite xdot_dotp. apply xsqrt_norm. Qed.

Lemma fold_sq_fin (f : xr -> xr -> xr) (fr : R -> R -> R) : forall g w a,
  (forall x y, f (Fin x) (Fin y) = Fin (fr x y)) ->
  fold_left (fun s gw => fadd xops s (sq xops (f (fst gw) (snd gw)))) (combine (map Fin g) (map Fin w)) (Fin a)
  = Fin (a + dotp (map2 fr g w) (map2 fr g w)).
Proof.
  intros g w a Hf. revert w a. induction g as [|x g IH]; intros w a; simpl.
  - f_equal. unfold map2. simpl. ring.
  - destruct w as [|y w]; simpl.
    + f_equal. unfold map2. simpl. ring.
    + rewrite Hf. cbn. rewrite IH. f_equal. unfold map2. simpl. ring.
Qed.

Lemma map2_vminus (c : R -> R) : forall g w, length g = length w ->
  forall fr : R -> R -> R, (forall x y, fr x y = x + c y) ->
  dotp (map2 fr g w) (map2 fr g w) = dotp (vminus (vneg g) (map c w)) (vminus (vneg g) (map c w)).
Proof.
  unfold map2, vneg. induction g as [|x g IH]; intros [|y w] H fr Hf; simpl in *; try discriminate; auto.
  rewrite (IH w ltac:(lia) fr Hf). rewrite Hf. ring.
Qed.
Lemma map2_vminus_norm (c : R -> R) g w (fr : R -> R -> R) : length g = length w -> (forall x y, fr x y = x + c y) ->
  norm2 (map2 fr g w) = norm2 (vminus (vneg g) (map c w)).
Proof. intros. unfold norm2. rewrite (map2_vminus c) by auto. reflexivity. Qed.
Lemma norm2_vneg v : norm2 (vneg v) = norm2 v.
Proof. unfold norm2, vneg. f_equal. induction v; simpl; auto. rewrite IHv. ring. Qed.

(** [a*norm] below and above near a nonzero point *)
Lemma norm2_lower w x : 0 < norm2 w -> length x = length w ->
  norm2 w + dotp (vscale (1 / norm2 w) w) (vminus x w) <= norm2 x.
Proof.
  intros Hw Hl. rewrite dotp_scale_l, dotp_minus_r, <- norm2_sq by auto.
  pose proof (cauchy_schwarz w x) as CS.
  apply Rmult_le_reg_r with (norm2 w); auto.
  replace ((norm2 w + 1 / norm2 w * (dotp w x - norm2 w ^ 2)) * norm2 w) with (dotp w x) by (field; lra).
  lra.
Qed.
Lemma norm2_upper w x : 0 < norm2 w -> length x = length w ->
  norm2 x <= norm2 w + dotp (vscale (1 / norm2 w) w) (vminus x w)
             + 1 / (2 * norm2 w) * dotp (vminus x w) (vminus x w).
Proof.
  intros Hw Hl. rewrite <- (norm2_sq (vminus x w)), norm2_minus_sq by auto.
  rewrite dotp_scale_l, dotp_minus_r, <- !norm2_sq by auto. rewrite (dotp_sym w x).
  set (A := norm2 w) in *. set (B := norm2 x).
  replace (A + 1 / A * (dotp x w - A ^ 2) + 1 / (2 * A) * (B ^ 2 - 2 * dotp x w + A ^ 2))
    with (B + (B - A) ^ 2 / (2 * A)) by (field; lra).
  assert (0 <= (B - A) ^ 2 / (2 * A)).
  { apply Rmult_le_pos; [apply pow2_ge_0|left; apply Rinv_0_lt_compat; lra]. }
  lra.
Qed.

(** *** L21 *)
Definition r_l21_score (a : R) (w g : list R) : R :=
  if Reqb (norm2 w) 0 then Rmax 0 (norm2 g - a)
  else norm2 (vminus (vneg g) (vscale (a / norm2 w) w)).
Lemma l21_score_fin a w g : length w = length g ->
  l21_score xops (L21 (Fin a)) (map Fin w) (map Fin g) = Fin (r_l21_score a w g).
Proof.
  intros Hl. unfold l21_score, r_l21_score; cbv zeta. rewrite any_nonzero_fin, !rownorm_fin.
  destruct (Reqb (norm2 w) 0) eqn:E; cbn [negb]; rb; [reflexivity|].
  change (f0 xops) with (Fin 0). rewrite (fold_sq_fin (fun x y => fadd xops x (fdiv xops (fmul xops (l21_alpha (L21 (Fin a))) y) (Fin (norm2 w))))
             (fun x y => x + a * y / norm2 w)).
  2:{ intros x y. cbn [l21_alpha fmul fdiv fadd xops xmul]. rewrite xdiv_fin by auto. reflexivity. }
  cbn [fsqrt xops]. rewrite Rplus_0_l, xsqrt_norm. f_equal.
  rewrite (map2_vminus_norm (fun y => a / norm2 w * y)); auto.
  intros x y. unfold Rdiv. ring.
Qed.

Lemma r_l21_score_dist n a w g : length w = n -> length g = n -> 0 <= a ->
  is_vdist (vsubgrad n (fun x => a * norm2 x) w) (vneg g) (r_l21_score a w g).
Proof.
  intros Hw Hg Ha. unfold r_l21_score. destruct (Reqb (norm2 w) 0) eqn:E; rb.
  - apply norm2_0_inv in E. rewrite Hw in E. rewrite E, <- (norm2_vneg g).
    apply vdist_zero; auto.
    + rewrite vneg_length; auto.
    + rewrite norm2_0. ring.
    + exists 0. split; [lra|]. intros; lra.
    + exists 0, 1. repeat split; try lra. intros; lra.
  - pose proof (norm2_pos w). assert (Hp : 0 < norm2 w) by lra.
    replace (vscale (a / norm2 w) w) with (vscale a (vscale (1 / norm2 w) w)).
    2:{ unfold vscale. rewrite map_map. apply map_ext. intros; field; lra. }
    apply vdist_smooth; auto.
    + rewrite !vscale_length. auto.
    + exists 0. split; [lra|]. intros x Hx. rewrite dotp_scale_l.
      pose proof (norm2_lower w x Hp ltac:(lia)). nra.
    + exists (a * (1 / (2 * norm2 w))). split.
      * apply Rmult_le_pos; auto. left. apply Rmult_lt_0_compat; [lra|]. apply Rinv_0_lt_compat. lra.
      * intros x Hx. rewrite dotp_scale_l. pose proof (norm2_upper w x Hp ltac:(lia)). nra.
Qed.

(** *** Block elastic net, nonzero rows *)
Definition benet_pen (a r : R) (x : list R) : R := a * (r * norm2 x + (1 - r) / 2 * norm2 x ^ 2).
Definition r_bl1l2_score (a r : R) (w g : list R) : R :=
  if Reqb (norm2 w) 0 then Rmax 0 (norm2 g ^ 2 - a * r)
  else norm2 (vminus (vneg g) (vscale (a * (r / norm2 w + (1 - r))) w)).
Lemma bl1l2_score_fin a r w g : length w = length g ->
  bl1l2_score xops (BlockL1PlusL2 (Fin a) (Fin r)) (map Fin w) (map Fin g) = Fin (r_bl1l2_score a r w g).
Proof.
  intros Hl. unfold bl1l2_score, r_bl1l2_score; cbv zeta. rewrite any_nonzero_fin, !rownorm_fin.
  destruct (Reqb (norm2 w) 0) eqn:E; cbn [negb]; rb.
  - cbn [ndot xops]. rewrite xdot_dotp, norm2_sq. reflexivity.
  - change (f0 xops) with (Fin 0). rewrite (fold_sq_fin (fun x y => fadd xops x (fmul xops (bl_alpha (BlockL1PlusL2 (Fin a) (Fin r)))
              (fadd xops (fmul xops (fdiv xops y (Fin (norm2 w))) (bl_l21_ratio (BlockL1PlusL2 (Fin a) (Fin r))))
                 (fmul xops (fsub xops (f1 xops) (bl_l21_ratio (BlockL1PlusL2 (Fin a) (Fin r)))) y))))
             (fun x y => x + a * (y / norm2 w * r + (1 - r) * y))).
    2:{ intros x y. cbn [bl_alpha bl_l21_ratio fmul fdiv fadd fsub f1 xops]. rewrite xdiv_fin by auto. reflexivity. }
    cbn [fsqrt xops]. rewrite Rplus_0_l, xsqrt_norm. f_equal.
    rewrite (map2_vminus_norm (fun y => a * (r / norm2 w + (1 - r)) * y)); auto.
    intros x y. field. auto.
Qed.
Lemma r_bl1l2_score_dist n a r w g : length w = n -> length g = n -> 0 <= a -> 0 <= r <= 1 ->
  norm2 w <> 0 ->
  is_vdist (vsubgrad n (benet_pen a r) w) (vneg g) (r_bl1l2_score a r w g).
Proof.
  intros Hw Hg Ha Hr E. unfold r_bl1l2_score. rewrite (proj2 (Reqb_false _ _)) by auto.
  pose proof (norm2_pos w). assert (Hp : 0 < norm2 w) by lra.
  assert (H1 : 0 <= a * ((1 - r) / 2)) by (apply Rmult_le_pos; lra).
  assert (H2 : 0 <= a * r) by nra.
  assert (Eq : forall x, length x = n -> dotp (vscale (a * (r / norm2 w + (1 - r))) w) (vminus x w)
       = a * r * dotp (vscale (1 / norm2 w) w) (vminus x w) + a * (1 - r) * (dotp w x - norm2 w ^ 2)).
  { intros x Hx. rewrite !dotp_scale_l, dotp_minus_r, norm2_sq by lia. field. lra. }
  assert (Esq : forall x, length x = n -> dotp (vminus x w) (vminus x w) = norm2 x ^ 2 - 2 * dotp w x + norm2 w ^ 2).
  { intros x Hx. rewrite <- norm2_sq, norm2_minus_sq, !norm2_sq, (dotp_sym w x) by lia. ring. }
  apply vdist_smooth; auto.
  - rewrite vscale_length. auto.
  - exists 0. split; [lra|]. intros x Hx. unfold benet_pen. rewrite Eq by auto.
    pose proof (norm2_lower w x Hp ltac:(lia)) as L.
    pose proof (dotp_pos (vminus x w)) as P. rewrite Esq in P by auto.
    assert (a * r * (norm2 w + dotp (vscale (1 / norm2 w) w) (vminus x w)) <= a * r * norm2 x)
      by (apply Rmult_le_compat_l; auto).
    assert (0 <= a * ((1 - r) / 2) * (norm2 x ^ 2 - 2 * dotp w x + norm2 w ^ 2)) by (apply Rmult_le_pos; auto).
    nra.
  - exists (a * r * (1 / (2 * norm2 w)) + a * ((1 - r) / 2)). split.
    + apply Rplus_le_le_0_compat; auto. apply Rmult_le_pos; auto. left.
      apply Rmult_lt_0_compat; [lra|]. apply Rinv_0_lt_compat. lra.
    + intros x Hx. unfold benet_pen. rewrite Eq by auto.
      pose proof (norm2_upper w x Hp ltac:(lia)) as L.
      assert (a * r * norm2 x <= a * r * (norm2 w + dotp (vscale (1 / norm2 w) w) (vminus x w)
               + 1 / (2 * norm2 w) * dotp (vminus x w) (vminus x w))) by (apply Rmult_le_compat_l; auto).
      rewrite Rmult_plus_distr_r.
      assert (a * ((1 - r) / 2) * dotp (vminus x w) (vminus x w)
              = a * ((1 - r) / 2) * (norm2 x ^ 2 - 2 * dotp w x + norm2 w ^ 2)) by (rewrite Esq by auto; ring).
      nra.
Qed.

(** the true distance on a zero row is [max 0 (norm g - a r)] *)
Lemma benet_zero_dist n a r g : length g = n -> 0 <= a -> 0 <= r <= 1 ->
  is_vdist (vsubgrad n (benet_pen a r) (repeat 0 n)) (vneg g) (Rmax 0 (norm2 g - a * r)).
Proof.
  intros Hg Ha Hr. rewrite <- (norm2_vneg g).
  assert (H1 : 0 <= a * ((1 - r) / 2)) by (apply Rmult_le_pos; lra).
  apply vdist_zero; try nra.
  - rewrite vneg_length; auto.
  - unfold benet_pen. rewrite norm2_0. ring.
  - exists 0. split; [lra|]. intros x _. unfold benet_pen. pose proof (pow2_ge_0 (norm2 x)). nra.
  - exists (a * ((1 - r) / 2)), 1. repeat split; try lra. intros x _ _. unfold benet_pen.
    rewrite <- norm2_sq. nra.
Qed.

(** *** Block MCP *)
Definition bmcp_pen (a gm : R) (x : list R) : R := mcp_pen a gm (norm2 x).
Definition r_bmcp_score (a gm : R) (w g : list R) : R :=
  if Reqb (norm2 w) 0 then Rmax 0 (norm2 g - a)
  else if Rltb (norm2 w) (a * gm) then norm2 (vscale (a / norm2 w - 1 / gm) w)
  else norm2 g.
Lemma bmcp_score_fin a gm w g : gm <> 0 ->
  bmcp_score xops (BlockMCP (Fin a) (Fin gm)) (map Fin w) (map Fin g) = Fin (r_bmcp_score a gm w g).
Proof.
  intros Hg. unfold bmcp_score, r_bmcp_score; cbv zeta. rewrite any_nonzero_fin, !rownorm_fin.
  destruct (Reqb (norm2 w) 0) eqn:E; cbn [negb]; rb; [reflexivity|].
  cbn [flt fmul xops xmul xlt bmcp_alpha bmcp_gamma].
  destruct (Rltb (norm2 w) (a * gm)) eqn:E2; [|reflexivity].
  cbn [fdiv fsub f1 xops]. rewrite !xdiv_fin by auto. cbn [xsub].
  set (sc := a / norm2 w - 1 / gm).
  assert (Es : xsum (map (fun w0 => sq xops (xmul w0 (Fin sc))) (map Fin w))
               = Fin (dotp (vscale sc w) (vscale sc w))).
  { rewrite <- xsum_sq. f_equal. unfold vscale. rewrite !map_map. apply map_ext. intros x.
    cbn. f_equal. ring. }
  cbn [nsum fsqrt xops]. rewrite Es, xsqrt_norm. reflexivity.
Qed.
Lemma r_bmcp_score_dist n a gm w g : length w = n -> length g = n -> 0 <= a -> 0 < gm ->
  norm2 w = 0 \/ a * gm <= norm2 w ->
  is_vdist (vsubgrad n (bmcp_pen a gm) w) (vneg g) (r_bmcp_score a gm w g).
Proof.
  intros Hw Hg Ha Hgm Hc.
  assert (Hinv : 0 < / (2 * gm)) by (apply Rinv_0_lt_compat; lra).
  unfold r_bmcp_score. destruct (Reqb (norm2 w) 0) eqn:E; rb.
  - apply norm2_0_inv in E. rewrite Hw in E. rewrite E, <- (norm2_vneg g).
    apply vdist_zero; auto.
    + rewrite vneg_length; auto.
    + unfold bmcp_pen, mcp_pen. rewrite norm2_0, Rabs_R0. destruct (Rle_dec _ _); [field; lra|nra].
    + exists (/ (2 * gm)). split; [lra|]. intros x Hx. unfold bmcp_pen.
      pose proof (mcp_hull_ge a gm (norm2 x) Ha Hgm) as H. unfold mcp_hull in H.
      rewrite Rabs_right in H by (apply Rle_ge, norm2_pos). rewrite <- norm2_sq. unfold Rdiv in H. lra.
    + destruct (Req_dec a 0) as [Ea|Ea].
      * exists 0, 1. repeat split; try lra. intros x _ _. unfold bmcp_pen.
        pose proof (mcp_pen_le_const a gm (norm2 x) Hgm). subst a. lra.
      * exists 0, (gm * a). split; [lra|]. split; [nra|]. intros x _ Hx. unfold bmcp_pen, mcp_pen.
        rewrite Rabs_right by (apply Rle_ge, norm2_pos).
        destruct (Rle_dec _ _); [|lra].
        assert (0 <= norm2 x ^ 2 / (2 * gm)) by (apply Rmult_le_pos; [apply pow2_ge_0|lra]). lra.
  - destruct Hc as [Hc|Hc]; [contradiction|].
    rewrite (proj2 (Rltb_false _ _)) by auto.
    replace (norm2 g) with (norm2 (vminus (vneg g) (repeat 0 n))).
    2:{ rewrite <- (norm2_vneg g). f_equal. rewrite <- Hg, <- (vneg_length g). clear.
        induction (vneg g); simpl; auto. rewrite IHl. f_equal. ring. }
    apply vdist_smooth; auto.
    + apply repeat_length.
    + exists (/ (2 * gm)). split; [lra|]. intros x Hx. rewrite dotp_0_l. unfold bmcp_pen.
      rewrite (mcp_pen_const a gm (norm2 w)) by (auto; rewrite Rabs_right; auto; apply Rle_ge, norm2_pos).
      pose proof (mcp_hull_sub_out a gm (norm2 w) (norm2 x) Ha Hgm) as H.
      rewrite Rabs_right in H by (apply Rle_ge, norm2_pos). specialize (H ltac:(lra)).
      unfold mcp_hull in H.
      rewrite (mcp_pen_const a gm (norm2 w)) in H by (auto; rewrite Rabs_right; auto; apply Rle_ge, norm2_pos).
      rewrite <- norm2_sq, norm2_minus_sq, <- !norm2_sq by lia.
      pose proof (cauchy_schwarz x w) as CS.
      assert (Eq : norm2 w ^ 2 / (2 * gm) + norm2 w / gm * (norm2 x - norm2 w) - norm2 x ^ 2 / (2 * gm)
                  = - (/ (2 * gm) * (norm2 x - norm2 w) ^ 2)) by (field; lra).
      assert (/ (2 * gm) * (norm2 x - norm2 w) ^ 2
              <= / (2 * gm) * (norm2 x ^ 2 - 2 * dotp x w + norm2 w ^ 2)).
      { apply Rmult_le_compat_l; [lra|]. nra. }
      lra.
    + exists 0. split; [lra|]. intros x Hx. rewrite dotp_0_l. unfold bmcp_pen.
      rewrite (mcp_pen_const a gm (norm2 w)) by (auto; rewrite Rabs_right; auto; apply Rle_ge, norm2_pos).
      pose proof (mcp_pen_le_const a gm (norm2 x) Hgm). lra.
Qed.
(** in the concave range the score is constant in the gradient, the true distance is not *)
Lemma r_bmcp_score_ignores a gm w g g' : norm2 w <> 0 -> norm2 w < a * gm ->
  r_bmcp_score a gm w g = r_bmcp_score a gm w g'.
Proof.
  intros H1 H2. unfold r_bmcp_score. rewrite (proj2 (Reqb_false _ _)), (proj2 (Rltb_spec _ _)); auto.
Qed.

(** *** whole working sets *)
Definition vdists_spec (n : nat) (phi : list R -> R) (W grad : list (list R)) (ws : list nat)
    (r : res (list xr * xr)) : Prop :=
  exists ds m, r = Ret (map Fin ds, m) /\ length ds = length ws /\ max_reported ds m /\
    forall k, (k < length ws)%nat ->
      is_vdist (vsubgrad n phi (nth (nth k ws O) W [])) (vneg (nth k grad [])) (nth k ds 0).

Definition fmat (r c : nat) (rows : list (list R)) : mat xr := Mat r c (map (map Fin) rows).

Lemma bscores_fin score rs r c r' c' n W grad ws :
  (forall w g, length w = n -> length g = n -> score (map Fin w) (map Fin g) = Fin (rs w g)) ->
  Forall (fun x => length x = n) W -> Forall (fun x => length x = n) grad ->
  (forall j, In j ws -> (j < length W)%nat) ->
  bscores xops score (fmat r c W) (fmat r' c' grad) ws
  = Ret (map Fin (map2 (fun g j => rs (nth j W []) g) grad ws),
         fold_max xops NInf (map Fin (map2 (fun g j => rs (nth j W []) g) grad ws))).
Proof.
  intros Hs HW Hg Hws. unfold bscores, fmat. cbn [mrows].
  assert (E : mapM (fun p => bind (mrow {| mnr := r; mnc := c; mrows := map (map Fin) W |} (snd p))
                 (fun Wj => Ret (score Wj (fst p)))) (combine (map (map Fin) grad) ws)
              = Ret (map Fin (map2 (fun g j => rs (nth j W []) g) grad ws))).
  { revert ws Hws. induction Hg as [|g grad Hgn Hg IH]; intros ws Hws; simpl; auto.
    destruct ws as [|j ws]; simpl; auto.
    unfold mrow, vget. cbn [mrows]. rewrite nth_error_map.
    assert (Hj : (j < length W)%nat) by (apply Hws; left; auto).
    rewrite (nth_error_nth' W [] Hj). simpl.
    rewrite Hs; auto.
    - unfold mrow in IH. rewrite IH by (intros; apply Hws; right; auto). reflexivity.
    - rewrite Forall_forall in HW. apply HW. apply nth_In. auto. }
  rewrite E. reflexivity.
Qed.
Lemma bscores_dists score rs phi n r c r' c' W grad ws :
  (forall w g, length w = n -> length g = n -> score (map Fin w) (map Fin g) = Fin (rs w g)) ->
  Forall (fun x => length x = n) W -> Forall (fun x => length x = n) grad ->
  length grad = length ws -> (forall j, In j ws -> (j < length W)%nat) ->
  (forall j g, In j ws -> length g = n -> is_vdist (vsubgrad n phi (nth j W [])) (vneg g) (rs (nth j W []) g)) ->
  vdists_spec n phi W grad ws (bscores xops score (fmat r c W) (fmat r' c' grad) ws).
Proof.
  intros Hs HW Hg Hl Hws Hd. rewrite (bscores_fin score rs _ _ _ _ n) by auto.
  eexists. eexists. split; [reflexivity|]. split; [|split].
  - apply map2_length; auto.
  - apply fold_max_reported.
  - intros k Hk. rewrite (map2_nth _ _ _ _ [] O) by lia. apply Hd.
    + apply nth_In; auto.
    + rewrite Forall_forall in Hg. apply Hg. apply nth_In. lia.
Qed.

(** the true distance in the concave range *)
Lemma bmcp_mid_dist n a gm w g : length w = n -> length g = n -> 0 <= a -> 0 < gm ->
  norm2 w <> 0 -> norm2 w < a * gm ->
  is_vdist (vsubgrad n (bmcp_pen a gm) w) (vneg g)
     (norm2 (vminus (vneg g) (vscale (a / norm2 w - 1 / gm) w))).
Proof.
  intros Hw Hg Ha Hgm E Hlt.
  pose proof (norm2_pos w). assert (Hp : 0 < norm2 w) by lra.
  assert (Hinv : 0 < / (2 * gm)) by (apply Rinv_0_lt_compat; lra).
  assert (Hinw : 0 < 1 / (2 * norm2 w)) by (apply Rmult_lt_0_compat; [lra|apply Rinv_0_lt_compat; lra]).
  assert (Eq : forall x, length x = n -> dotp (vscale (a / norm2 w - 1 / gm) w) (vminus x w)
       = a * dotp (vscale (1 / norm2 w) w) (vminus x w) - / (2 * gm) * (2 * (dotp w x - norm2 w ^ 2))).
  { intros x Hx. rewrite !dotp_scale_l, dotp_minus_r, norm2_sq by lia. field. lra. }
  assert (Esq : forall x, length x = n -> dotp (vminus x w) (vminus x w) = norm2 x ^ 2 - 2 * dotp w x + norm2 w ^ 2).
  { intros x Hx. rewrite <- norm2_sq, norm2_minus_sq, !norm2_sq, (dotp_sym w x) by lia. ring. }
  assert (Ew : bmcp_pen a gm w = a * norm2 w - / (2 * gm) * norm2 w ^ 2).
  { unfold bmcp_pen, mcp_pen. rewrite Rabs_right by lra. destruct (Rle_dec _ _); [field; lra|lra]. }
  apply vdist_smooth; auto.
  - rewrite vscale_length. auto.
  - exists (/ (2 * gm)). split; [lra|]. intros x Hx. rewrite Ew, Eq, Esq by auto.
    pose proof (norm2_lower w x Hp ltac:(lia)) as L.
    assert (a * (norm2 w + dotp (vscale (1 / norm2 w) w) (vminus x w)) <= a * norm2 x)
      by (apply Rmult_le_compat_l; auto).
    pose proof (mcp_hull_ge a gm (norm2 x) Ha Hgm) as HG. unfold mcp_hull in HG.
    rewrite Rabs_right in HG by (apply Rle_ge, norm2_pos). unfold bmcp_pen.
    unfold Rdiv in HG. nra.
  - exists (a * (1 / (2 * norm2 w)) + / (2 * gm)). split.
    + apply Rplus_le_le_0_compat; [|lra]. apply Rmult_le_pos; lra.
    + intros x Hx. rewrite Ew, Eq by auto.
      pose proof (norm2_upper w x Hp ltac:(lia)) as U.
      assert (U' : a * norm2 x <= a * (norm2 w + dotp (vscale (1 / norm2 w) w) (vminus x w)
               + 1 / (2 * norm2 w) * dotp (vminus x w) (vminus x w))) by (apply Rmult_le_compat_l; auto).
      assert (P : 0 <= / (2 * gm) * dotp (vminus x w) (vminus x w)) by (apply Rmult_le_pos; [lra|apply dotp_pos]).
      rewrite (Rmult_plus_distr_r (a * _)).
      assert (UB : bmcp_pen a gm x <= a * norm2 x - / (2 * gm) * norm2 x ^ 2
                    + / (2 * gm) * dotp (vminus x w) (vminus x w)).
      { unfold bmcp_pen, mcp_pen. rewrite Rabs_right by (apply Rle_ge, norm2_pos).
        destruct (Rle_dec _ _).
        - unfold Rdiv. nra.
        - assert (D : (norm2 x - a * gm) ^ 2 <= dotp (vminus x w) (vminus x w)).
          { rewrite Esq by auto. pose proof (cauchy_schwarz w x).
            assert ((norm2 x - a * gm) ^ 2 <= (norm2 x - norm2 w) ^ 2) by nra. nra. }
          assert (/ (2 * gm) * (norm2 x - a * gm) ^ 2 <= / (2 * gm) * dotp (vminus x w) (vminus x w))
            by (apply Rmult_le_compat_l; lra).
          assert (gm * a ^ 2 / 2 = a * norm2 x - / (2 * gm) * norm2 x ^ 2 + / (2 * gm) * (norm2 x - a * gm) ^ 2)
            by (field; lra).
          lra. }
      assert (S : / (2 * gm) * dotp (vminus x w) (vminus x w)
                 = / (2 * gm) * norm2 x ^ 2 - / (2 * gm) * (2 * dotp w x) + / (2 * gm) * norm2 w ^ 2)
        by (rewrite Esq by auto; ring).
      nra.
Qed.
