(** Instances of the penalty lemmas for whole penalties, and concrete evaluations. *)
From Coq Require Import List ZArith Bool Arith Reals Lra Lia Psatz.
From Verif Require Import Ops Arr XR SpecPen VecR MUtils MPenalties MBlockPenalties
  PProx PProx05 PProxBlock PSubdiff PSubdiffBlock.
Import ListNotations.
Open Scope R_scope.

Ltac rdec := repeat first
  [ rewrite (proj2 (Rltb_spec _ _)) by lra | rewrite (proj2 (Rltb_false _ _)) by lra
  | rewrite (proj2 (Rleb_spec _ _)) by lra | rewrite (proj2 (Rleb_false _ _)) by lra
  | rewrite (proj2 (Reqb_spec _ _)) by lra | rewrite (proj2 (Reqb_false _ _)) by lra ].

Ltac listR := cbn [map]; repeat match goal with
  | |- _ :: _ = _ :: _ => apply f_equal2 | |- Fin _ = Fin _ => apply f_equal | |- [] = [] => reflexivity end.

Lemma ex_l1 : 0 < 1 / 2 /\ 0 <= 3 /\
  pen_prox (l1_penalty xops) (L1 (Fin 3)) (Fin 4) (Fin (1 / 2)) = Fin (5 / 2).
Proof.
  split; [lra|]. split; [lra|]. cbn [pen_prox l1_penalty l1_prox l1_alpha].
  unfold l1_prox. cbn [l1_alpha fmul xops xmul]. rewrite soft_fin. unfold rsoft. rdec. f_equal. lra.
Qed.
Lemma ex_l1l2 : 0 < 1 /\ 0 <= 2 /\ 0 <= 1 / 2 <= 1 /\
  pen_prox (l1l2_penalty xops) (L1PlusL2 (Fin 2) (Fin (1 / 2))) (Fin (-5)) (Fin 1) = Fin (-2).
Proof.
  repeat (split; [lra|]). cbn [pen_prox l1l2_penalty]. unfold l1l2_prox. cbn -[Rmult Rplus xdiv soft_thresholding IZR].
  rewrite soft_fin. unfold rsoft. rdec. rewrite xdiv_fin by lra. f_equal. field_simplify; lra.
Qed.
Lemma ex_mcp : 0 < 1 /\ 0 <= 1 /\ 1 <= 3 /\
  pen_prox (mcp_penalty xops) (MCP (Fin 1) (Fin 3)) (Fin 2) (Fin 1) = Fin (3 / 2).
Proof.
  repeat (split; [lra|]). cbn [pen_prox mcp_penalty]. rewrite mcp_prox_fin by lra. f_equal.
  unfold rmcp_prox. rewrite Rabs_right by lra. rdec. unfold rsign. try lra.
Qed.
Lemma mcp_prox_refuted :
  exists v s a g u better, 0 < s /\ 0 <= a /\ 1 <= g /\
    pen_prox (mcp_penalty xops) (MCP (Fin a) (Fin g)) (Fin v) (Fin s) = Fin u /\
    prox_obj (fun x => s * mcp_pen a g x) v better < prox_obj (fun x => s * mcp_pen a g x) v u.
Proof. exists 2, 2, 1, 1, 0, 2. repeat (split; [lra|]). exact mcp_prox_bad. Qed.
Lemma ex_l05 : 0 < 1 /\ 0 < 1 /\
  exists u, pen_prox (l05_penalty xops) (L05 (Fin 1)) (Fin 3) (Fin 1) = Fin u /\ u <> 0 /\ u <> 3.
Proof.
  repeat (split; [lra|]). destruct (l05_prox_min 3 1 1 ltac:(lra) ltac:(lra)) as (u & Hu & Hm).
  assert (E3 : sqrt 3 ^ 2 = 3) by (apply pow2_sqrt; lra).
  assert (P3 : 0 <= sqrt 3) by apply sqrt_pos.
  assert (B3 : 1.732 <= sqrt 3 <= 2) by nra.
  exists u. split; auto. split; intros ->.
  - specialize (Hm 3). unfold prox_obj in Hm. rewrite Rabs_R0, sqrt_0, Rabs_right in Hm by lra. lra.
  - specialize (Hm 2.7). unfold prox_obj in Hm. rewrite !Rabs_right in Hm by lra.
    assert (E : sqrt 2.7 ^ 2 = 2.7) by (apply pow2_sqrt; lra).
    assert (P : 0 <= sqrt 2.7) by apply sqrt_pos.
    assert (sqrt 2.7 <= 1.6434) by nra. lra.
Qed.

Lemma norm34 : norm2 [3; 4] = 5.
Proof. unfold norm2. cbn. replace (3 * 3 + (4 * 4 + 0)) with (5 * 5) by ring. apply sqrt_square. lra. Qed.
Lemma norm68 : norm2 [6; 8] = 10.
Proof. unfold norm2. cbn. replace (6 * 6 + (8 * 8 + 0)) with (10 * 10) by ring. apply sqrt_square. lra. Qed.
Lemma norm1 x : norm2 [x] = Rabs x.
Proof. unfold norm2. cbn. rewrite Rplus_0_r. apply sqrt_Rsqr_abs. Qed.

Lemma ex_l21 : length [3; 4] = 2%nat /\ 0 < 1 /\ 0 <= 1 /\ (norm2 [3; 4] <> 0 \/ 0 < 1) /\
  bpen_prox (l21_penalty xops) (L21 (Fin 1)) (map Fin [3; 4]) (Fin 1) = map Fin [12 / 5; 16 / 5].
Proof.
  split; [reflexivity|]. repeat (split; [first [lra|right; lra]|]).
  cbn [bpen_prox l21_penalty]. unfold l21_prox. cbn [l21_alpha fmul xops xmul].
  rewrite bst_fin by (left; rewrite norm34; lra). f_equal. unfold rbst. rewrite norm34. rdec.
  cbn. listR; field.
Qed.
Lemma l21_prox_nan n s : (0 < n)%nat ->
  bpen_prox (l21_penalty xops) (L21 (Fin 0)) (map Fin (repeat 0 n)) (Fin s) = repeat NaN n.
Proof.
  intros H. cbn [bpen_prox l21_penalty]. unfold l21_prox. cbn [l21_alpha fmul xops xmul].
  rewrite Rmult_0_l. apply bst_nan. auto.
Qed.
Lemma ex_bl1l2 : length [3; 4] = 2%nat /\ 0 < 1 /\ 0 <= 2 /\ 0 <= 1 / 2 <= 1 /\
  (norm2 [3; 4] <> 0 \/ 0 < 2 * (1 / 2)) /\
  bpen_prox (bl1l2_penalty xops) (BlockL1PlusL2 (Fin 2) (Fin (1 / 2))) (map Fin [3; 4]) (Fin 1)
    = map Fin [6 / 5; 8 / 5].
Proof.
  split; [reflexivity|]. repeat (split; [first [lra|right; lra]|]).
  cbn [bpen_prox bl1l2_penalty]. unfold bl1l2_prox. cbn [bl_alpha bl_l21_ratio fmul fadd fsub f1 xops xmul xadd xsub].
  cbv zeta. rewrite bst_fin by (left; rewrite norm34; lra). unfold rbst. rewrite norm34. rdec.
  cbn -[xdiv Rmult Rplus Rminus xsub IZR]. cbn [xsub xadd xmul xopp]. rewrite !xdiv_fin by lra.
  listR; field.
Qed.
Lemma ex_bmcp : length [6; 8] = 2%nat /\ 0 < 1 /\ 0 <= 5 /\ 1 <= 3 /\
  bpen_prox (bmcp_penalty xops) (BlockMCP (Fin 5) (Fin 3)) (map Fin [6; 8]) (Fin 1)
    = map Fin [9 / 2; 6].
Proof.
  split; [reflexivity|]. repeat (split; [lra|]).
  cbn [bpen_prox bmcp_penalty]. unfold bmcp_prox. rewrite rownorm_fin, norm68. cbv zeta.
  cbn [bmcp_alpha bmcp_gamma fmul fdiv fle flt fsub f1 xops xmul]. rewrite !xdiv_fin by lra.
  cbn [xmul]. rewrite xle_fin, xlt_fin. rdec. cbn [map]. unfold xsub. cbn [xadd xopp xmul].
  rewrite !xdiv_fin by lra. listR; field.
Qed.

Lemma l1_dists a w grad ws :
  0 <= a -> length grad = length ws -> (forall j, In j ws -> (j < length w)%nat) ->
  dists_spec (abs_pen a) w grad ws
    (pen_subdiff_distance (l1_penalty xops) (L1 (Fin a)) (map Fin w) (map Fin grad) ws).
Proof.
  intros. apply (scores_dists _ (r_l1_score a)); auto using l1_score_fin. intros; apply r_l1_score_dist; auto.
Qed.
Lemma l1l2_dists a r w grad ws :
  0 <= a -> 0 <= r <= 1 -> length grad = length ws -> (forall j, In j ws -> (j < length w)%nat) ->
  dists_spec (enet_pen a r) w grad ws
    (pen_subdiff_distance (l1l2_penalty xops) (L1PlusL2 (Fin a) (Fin r)) (map Fin w) (map Fin grad) ws).
Proof.
  intros. apply (scores_dists _ (r_l1l2_score a r)); auto using l1l2_score_fin.
  intros; apply r_l1l2_score_dist; auto.
Qed.
Lemma mcp_dists a gm w grad ws :
  0 <= a -> 0 < gm -> length grad = length ws -> (forall j, In j ws -> (j < length w)%nat) ->
  dists_spec (mcp_pen a gm) w grad ws
    (pen_subdiff_distance (mcp_penalty xops) (MCP (Fin a) (Fin gm)) (map Fin w) (map Fin grad) ws).
Proof.
  intros. apply (scores_dists _ (r_mcp_score a gm)); auto.
  - intros. apply mcp_score_fin. lra.
  - intros; apply r_mcp_score_dist; auto.
Qed.
Lemma ex_l1_dist : 0 <= 1 /\ length [3; 5] = length [2%nat; 0%nat] /\
  (forall j, In j [2%nat; 0%nat] -> (j < length [0; 7; -1]%R)%nat) /\
  pen_subdiff_distance (l1_penalty xops) (L1 (Fin 1)) (map Fin [0; 7; -1]) (map Fin [3; 5]) [2%nat; 0%nat]
    = Ret (map Fin [2; 4], Fin 4).
Proof.
  split; [lra|]. split; [reflexivity|]. split; [cbn; lia|].
  cbn [pen_subdiff_distance l1_penalty]. rewrite (scores_fin _ (r_l1_score 1)).
  - unfold map2. cbn [combine map fst snd nth]. unfold r_l1_score.
    rewrite (proj2 (Reqb_false (-1) 0)) by lra. rewrite Reqb_refl. unfold rsign. rdec.
    rewrite (Rabs_right 5) by lra.
    replace (Rabs _) with 2 by (rewrite Rabs_left || rewrite Rabs_right; lra).
    rewrite Rmax_right by lra. cbn [fold_max fold_left fmax xops map]. unfold fold_max. cbn [fold_left fmax xops xmax].
    rewrite Rmax_right by lra. replace (5 - 1) with 4 by ring. reflexivity.
  - intros; apply l1_score_fin.
  - cbn; lia.
Qed.
Lemma l21_dists n a r c r' c' W grad ws :
  0 <= a -> Forall (fun x => length x = n) W -> Forall (fun x => length x = n) grad ->
  length grad = length ws -> (forall j, In j ws -> (j < length W)%nat) ->
  vdists_spec n (fun x => a * norm2 x) W grad ws
    (bpen_subdiff_distance (l21_penalty xops) (L21 (Fin a)) (fmat r c W) (fmat r' c' grad) ws).
Proof.
  intros Ha HW Hg Hl Hws. apply (bscores_dists _ (r_l21_score a)); auto.
  - intros; apply l21_score_fin; lia.
  - intros; apply r_l21_score_dist; auto. rewrite Forall_forall in HW. apply HW, nth_In; auto.
Qed.
Lemma ex_l21_dist : 0 <= 1 /\ Forall (fun x : list R => length x = 2%nat) [[0; 0]; [3; 4]] /\
  Forall (fun x : list R => length x = 2%nat) [[3; 4]] /\
  length [[3; 4]] = length [0%nat] /\ (forall j, In j [0%nat] -> (j < length [[0; 0]; [3; 4]]%R)%nat) /\
  bpen_subdiff_distance (l21_penalty xops) (L21 (Fin 1)) (fmat 2 2 [[0; 0]; [3; 4]]) (fmat 1 2 [[3; 4]]) [0%nat]
    = Ret ([Fin 4], Fin 4).
Proof.
  split; [lra|]. split; [repeat constructor|]. split; [repeat constructor|]. split; [reflexivity|].
  split; [cbn; lia|].
  cbn [bpen_subdiff_distance l21_penalty]. rewrite (bscores_fin _ (r_l21_score 1) _ _ _ _ 2).
  - unfold map2. cbn [combine map fst snd nth]. unfold r_l21_score.
    change [0; 0] with (repeat 0 2). rewrite norm2_0, Reqb_refl, norm34, Rmax_right by lra.
    replace (5 - 1) with 4 by ring. reflexivity.
  - intros; apply l21_score_fin; lia.
  - repeat constructor.
  - repeat constructor.
  - cbn; lia.
Qed.
Lemma bl1l2_dists n a rho r c r' c' W grad ws :
  0 <= a -> 0 <= rho <= 1 -> Forall (fun x => length x = n) W -> Forall (fun x => length x = n) grad ->
  length grad = length ws -> (forall j, In j ws -> (j < length W)%nat) ->
  (forall j, In j ws -> norm2 (nth j W []) <> 0) ->
  vdists_spec n (benet_pen a rho) W grad ws
    (bpen_subdiff_distance (bl1l2_penalty xops) (BlockL1PlusL2 (Fin a) (Fin rho))
       (fmat r c W) (fmat r' c' grad) ws).
Proof.
  intros Ha Hr HW Hg Hl Hws Hn. apply (bscores_dists _ (r_bl1l2_score a rho)); auto.
  - intros; apply bl1l2_score_fin; lia.
  - intros; apply r_bl1l2_score_dist; auto. rewrite Forall_forall in HW. apply HW, nth_In; auto.
Qed.
Lemma ex_bl1l2_dist : 0 <= 1 /\ 0 <= 1 / 2 <= 1 /\ norm2 (nth 0 [[3; 4]] []) <> 0.
Proof. cbn [nth]. rewrite norm34. lra. Qed.
Lemma bl1l2_one a rho g :
  bpen_subdiff_distance (bl1l2_penalty xops) (BlockL1PlusL2 (Fin a) (Fin rho))
        (fmat 1 1 [[0]]) (fmat 1 1 [[g]]) [0%nat]
  = Ret ([Fin (Rmax 0 (norm2 [g] ^ 2 - a * rho))], Fin (Rmax 0 (norm2 [g] ^ 2 - a * rho))).
Proof.
  cbn [bpen_subdiff_distance bl1l2_penalty]. rewrite (bscores_fin _ (r_bl1l2_score a rho) _ _ _ _ 1).
  - unfold map2. cbn [combine map fst snd nth]. unfold r_bl1l2_score.
    rewrite norm1, Rabs_R0, Reqb_refl. reflexivity.
  - intros; apply bl1l2_score_fin; lia.
  - repeat constructor.
  - repeat constructor.
  - cbn; lia.
Qed.
Lemma bl1l2_refuted :
  (exists a rho g sc d, 0 <= a /\ 0 <= rho <= 1 /\
     bpen_subdiff_distance (bl1l2_penalty xops) (BlockL1PlusL2 (Fin a) (Fin rho))
        (fmat 1 1 [[0]]) (fmat 1 1 [[g]]) [0%nat] = Ret ([Fin sc], Fin sc) /\
     is_vdist (vsubgrad 1 (benet_pen a rho) [0]) [- g] d /\ sc = 0 /\ 0 < d) /\
  (exists a rho g sc d, 0 <= a /\ 0 <= rho <= 1 /\
     bpen_subdiff_distance (bl1l2_penalty xops) (BlockL1PlusL2 (Fin a) (Fin rho))
        (fmat 1 1 [[0]]) (fmat 1 1 [[g]]) [0%nat] = Ret ([Fin sc], Fin sc) /\
     is_vdist (vsubgrad 1 (benet_pen a rho) [0]) [- g] d /\ 0 < sc /\ d = 0).
Proof.
  split.
  - exists (3 / 10), 1, (1 / 2), 0, (1 / 5). split; [lra|]. split; [lra|]. split; [|split; [|lra]].
    + rewrite bl1l2_one, norm1, Rabs_right by lra. rewrite Rmax_left by lra. reflexivity.
    + pose proof (benet_zero_dist 1 (3 / 10) 1 [1 / 2] eq_refl ltac:(lra) ltac:(lra)) as H.
      rewrite norm1, Rabs_right, Rmax_right in H by lra. replace (1 / 2 - 3 / 10 * 1) with (1 / 5) in H by lra.
      exact H.
  - exists 3, 1, 2, 1, 0. split; [lra|]. split; [lra|]. split; [|split; [|lra]].
    + rewrite bl1l2_one, norm1, Rabs_right by lra. rewrite Rmax_right by lra.
      replace (2 ^ 2 - 3 * 1) with 1 by ring. reflexivity.
    + pose proof (benet_zero_dist 1 3 1 [2] eq_refl ltac:(lra) ltac:(lra)) as H.
      rewrite norm1, Rabs_right, Rmax_left in H by lra. exact H.
Qed.
Lemma bmcp_dists n a gm r c r' c' W grad ws :
  0 <= a -> 0 < gm -> Forall (fun x => length x = n) W -> Forall (fun x => length x = n) grad ->
  length grad = length ws -> (forall j, In j ws -> (j < length W)%nat) ->
  (forall j, In j ws -> norm2 (nth j W []) = 0 \/ a * gm <= norm2 (nth j W [])) ->
  vdists_spec n (bmcp_pen a gm) W grad ws
    (bpen_subdiff_distance (bmcp_penalty xops) (BlockMCP (Fin a) (Fin gm))
       (fmat r c W) (fmat r' c' grad) ws).
Proof.
  intros Ha Hr HW Hg Hl Hws Hn. apply (bscores_dists _ (r_bmcp_score a gm)); auto.
  - intros; apply bmcp_score_fin; lra.
  - intros; apply r_bmcp_score_dist; auto. rewrite Forall_forall in HW. apply HW, nth_In; auto.
Qed.
Lemma ex_bmcp_dist : 0 <= 1 /\ 0 < 3 /\ (norm2 [3; 4] = 0 \/ 1 * 3 <= norm2 [3; 4]).
Proof. rewrite norm34. lra. Qed.
Lemma bmcp_one a gm r c w g : 0 < gm ->
  bpen_subdiff_distance (bmcp_penalty xops) (BlockMCP (Fin a) (Fin gm)) (fmat r c [w]) (fmat r c [g]) [0%nat]
  = Ret ([Fin (r_bmcp_score a gm w g)], Fin (r_bmcp_score a gm w g)).
Proof.
  intros H. cbn [bpen_subdiff_distance bmcp_penalty].
  unfold bscores, fmat. cbn [mrows map combine mapM]. unfold mrow, vget. cbn [mrows nth_error bind snd fst].
  rewrite bmcp_score_fin by lra. reflexivity.
Qed.
Lemma bmcp_ignores a gm r c w g g' :
  0 < gm -> norm2 w <> 0 -> norm2 w < a * gm ->
  bpen_subdiff_distance (bmcp_penalty xops) (BlockMCP (Fin a) (Fin gm)) (fmat r c [w]) (fmat r c [g]) [0%nat]
  = bpen_subdiff_distance (bmcp_penalty xops) (BlockMCP (Fin a) (Fin gm)) (fmat r c [w]) (fmat r c [g']) [0%nat].
Proof. intros. rewrite !bmcp_one, (r_bmcp_score_ignores a gm w g g') by auto. reflexivity. Qed.
Lemma bmcp_refuted :
  exists a gm w g sc d, 0 <= a /\ 1 <= gm /\
     bpen_subdiff_distance (bmcp_penalty xops) (BlockMCP (Fin a) (Fin gm))
        (fmat 1 1 [[w]]) (fmat 1 1 [[g]]) [0%nat] = Ret ([Fin sc], Fin sc) /\
     is_vdist (vsubgrad 1 (bmcp_pen a gm) [w]) [- g] d /\ 0 < sc /\ d = 0.
Proof.
  exists 1, 2, 1, (- (1 / 2)), (1 / 2), 0. split; [lra|]. split; [lra|].
  assert (N1 : norm2 [1] = 1) by (rewrite norm1, Rabs_right; lra).
  split; [|split; [|lra]].
  - rewrite bmcp_one by lra. unfold r_bmcp_score. rewrite N1. rdec. unfold vscale. cbn [map].
    rewrite norm1, Rabs_right by lra. replace ((1 / 1 - 1 / 2) * 1) with (1 / 2) by field. reflexivity.
  - pose proof (bmcp_mid_dist 1 1 2 [1] [- (1 / 2)] eq_refl eq_refl ltac:(lra) ltac:(lra)) as H.
    rewrite N1 in H. specialize (H ltac:(lra) ltac:(lra)).
    unfold vneg, vscale in H. cbn [map vminus] in H. rewrite norm1 in H.
    replace (- - (1 / 2) - (1 / 1 - 1 / 2) * 1) with 0 in H by field. rewrite Rabs_R0 in H. exact H.
Qed.
