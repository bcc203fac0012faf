(** Property theorems C01-C11: proximal operators and optimality scores, in exact real arithmetic
    ([Fin x] is the real number [x]; [NaN], [PInf], [NInf] are the IEEE special values).
    Specification vocabulary ([strong_min], [prox_obj], [is_dist], ...) is in SpecPen.v. *)
From Coq Require Import List ZArith Bool Arith Reals Lra Lia Psatz.
From Verif Require Import Ops Arr XR SpecPen VecR MUtils MPenalties MBlockPenalties
  PProx PProx05 PProxBlock PSubdiff PSubdiffBlock PPenEx.
Import ListNotations.
Open Scope R_scope.

(** *** C01 *)
Theorem C01_l1_prox_minimises v s a : 0 < s -> 0 <= a ->
  exists u, pen_prox (l1_penalty xops) (L1 (Fin a)) (Fin v) (Fin s) = Fin u /\
            strong_min 1 (prox_obj (fun x => s * abs_pen a x) v) u.
Proof. exact (l1_prox_min v s a). Qed.
Print Assumptions C01_l1_prox_minimises.
Example C01_nonvacuous : 0 < 1 / 2 /\ 0 <= 3 /\
  pen_prox (l1_penalty xops) (L1 (Fin 3)) (Fin 4) (Fin (1 / 2)) = Fin (5 / 2).
Proof. exact ex_l1. Qed.

(** *** C02 *)
Theorem C02_elastic_net_prox_minimises v s a r : 0 < s -> 0 <= a -> 0 <= r <= 1 ->
  exists u, pen_prox (l1l2_penalty xops) (L1PlusL2 (Fin a) (Fin r)) (Fin v) (Fin s) = Fin u /\
            strong_min (1 + s * (1 - r) * a) (prox_obj (fun x => s * enet_pen a r x) v) u.
Proof. exact (l1l2_prox_min v s a r). Qed.
Print Assumptions C02_elastic_net_prox_minimises.
Example C02_nonvacuous : 0 < 1 /\ 0 <= 2 /\ 0 <= 1 / 2 <= 1 /\
  pen_prox (l1l2_penalty xops) (L1PlusL2 (Fin 2) (Fin (1 / 2))) (Fin (-5)) (Fin 1) = Fin (-2).
Proof. exact ex_l1l2. Qed.

(** *** C03.  The strong-convexity constant [1 - s/g] is positive exactly when [s < g]. *)
Theorem C03_mcp_prox_minimises v s a g : 0 < s -> 0 <= a -> s <= g ->
  exists u, pen_prox (mcp_penalty xops) (MCP (Fin a) (Fin g)) (Fin v) (Fin s) = Fin u /\
            strong_min (1 - s / g) (prox_obj (fun x => s * mcp_pen a g x) v) u.
Proof. exact (mcp_prox_min v s a g). Qed.
Print Assumptions C03_mcp_prox_minimises.
Example C03_nonvacuous : 0 < 1 /\ 0 <= 1 /\ 1 <= 3 /\
  pen_prox (mcp_penalty xops) (MCP (Fin 1) (Fin 3)) (Fin 2) (Fin 1) = Fin (3 / 2).
Proof. exact ex_mcp. Qed.
(** Without [s <= gamma] the returned value need not be a minimiser, although [gamma >= 1]. *)
Theorem C03_mcp_prox_small_gamma_refuted :
  exists v s a g u better, 0 < s /\ 0 <= a /\ 1 <= g /\
    pen_prox (mcp_penalty xops) (MCP (Fin a) (Fin g)) (Fin v) (Fin s) = Fin u /\
    prox_obj (fun x => s * mcp_pen a g x) v better < prox_obj (fun x => s * mcp_pen a g x) v u.
Proof. exact mcp_prox_refuted. Qed.
Print Assumptions C03_mcp_prox_small_gamma_refuted.

(** *** C04 *)
Theorem C04_l05_prox_minimises v s a : 0 < s -> 0 < a ->
  exists u, pen_prox (l05_penalty xops) (L05 (Fin a)) (Fin v) (Fin s) = Fin u /\
            strong_min 0 (prox_obj (fun x => s * (a * sqrt (Rabs x))) v) u.
Proof. exact (l05_prox_min v s a). Qed.
Print Assumptions C04_l05_prox_minimises.
Example C04_nonvacuous : 0 < 1 /\ 0 < 1 /\
  exists u, pen_prox (l05_penalty xops) (L05 (Fin 1)) (Fin 3) (Fin 1) = Fin u /\ u <> 0 /\ u <> 3.
Proof. exact ex_l05. Qed.
Theorem C04_l05_prox_not_a_number :
  pen_prox (l05_penalty xops) (L05 (Fin 0)) (Fin 0) (Fin 1) = NaN.
Proof. exact prox_05_nan. Qed.
Print Assumptions C04_l05_prox_not_a_number.

(** *** C05 *)
Theorem C05_l21_prox_minimises n v s a : length v = n -> 0 < s -> 0 <= a -> norm2 v <> 0 \/ 0 < a ->
  exists u, bpen_prox (l21_penalty xops) (L21 (Fin a)) (map Fin v) (Fin s) = map Fin u /\
            vstrong_min n 1 (vprox_obj (fun x => s * (a * x)) v) u.
Proof. exact (l21_prox_min n v s a). Qed.
Print Assumptions C05_l21_prox_minimises.
Example C05_nonvacuous : length [3; 4] = 2%nat /\ 0 < 1 /\ 0 <= 1 /\ (norm2 [3; 4] <> 0 \/ 0 < 1) /\
  bpen_prox (l21_penalty xops) (L21 (Fin 1)) (map Fin [3; 4]) (Fin 1) = map Fin [12 / 5; 16 / 5].
Proof. exact ex_l21. Qed.
Theorem C05_l21_prox_not_a_number n s : (0 < n)%nat ->
  bpen_prox (l21_penalty xops) (L21 (Fin 0)) (map Fin (repeat 0 n)) (Fin s) = repeat NaN n.
Proof. exact (l21_prox_nan n s). Qed.
Print Assumptions C05_l21_prox_not_a_number.

(** *** C06 *)
Theorem C06_block_elastic_net_prox_minimises n v s a r :
  length v = n -> 0 < s -> 0 <= a -> 0 <= r <= 1 -> norm2 v <> 0 \/ 0 < a * r ->
  exists u, bpen_prox (bl1l2_penalty xops) (BlockL1PlusL2 (Fin a) (Fin r)) (map Fin v) (Fin s)
              = map Fin u /\
            vstrong_min n (1 + s * (1 - r) * a)
              (vprox_obj (fun x => s * (a * (r * x + (1 - r) / 2 * x ^ 2))) v) u.
Proof. exact (bl1l2_prox_min n v s a r). Qed.
Print Assumptions C06_block_elastic_net_prox_minimises.
Example C06_nonvacuous : length [3; 4] = 2%nat /\ 0 < 1 /\ 0 <= 2 /\ 0 <= 1 / 2 <= 1 /\
  (norm2 [3; 4] <> 0 \/ 0 < 2 * (1 / 2)) /\
  bpen_prox (bl1l2_penalty xops) (BlockL1PlusL2 (Fin 2) (Fin (1 / 2))) (map Fin [3; 4]) (Fin 1)
    = map Fin [6 / 5; 8 / 5].
Proof. exact ex_bl1l2. Qed.

(** *** C07 *)
Theorem C07_block_mcp_prox_minimises n v s a g : length v = n -> 0 < s -> 0 <= a -> s <= g ->
  exists u, bpen_prox (bmcp_penalty xops) (BlockMCP (Fin a) (Fin g)) (map Fin v) (Fin s)
              = map Fin u /\
            vstrong_min n (1 - s / g) (vprox_obj (fun x => s * mcp_pen a g x) v) u.
Proof. exact (bmcp_prox_min n v s a g). Qed.
Print Assumptions C07_block_mcp_prox_minimises.
Example C07_nonvacuous : length [6; 8] = 2%nat /\ 0 < 1 /\ 0 <= 5 /\ 1 <= 3 /\
  bpen_prox (bmcp_penalty xops) (BlockMCP (Fin 5) (Fin 3)) (map Fin [6; 8]) (Fin 1)
    = map Fin [9 / 2; 6].
Proof. exact ex_bmcp. Qed.

(** *** C08 *)
Theorem C08_l1_scores_are_distances a w grad ws :
  0 <= a -> length grad = length ws -> (forall j, In j ws -> (j < length w)%nat) ->
  dists_spec (abs_pen a) w grad ws
    (pen_subdiff_distance (l1_penalty xops) (L1 (Fin a)) (map Fin w) (map Fin grad) ws).
Proof. exact (l1_dists a w grad ws). Qed.
Print Assumptions C08_l1_scores_are_distances.
Theorem C08_elastic_net_scores_are_distances a r w grad ws :
  0 <= a -> 0 <= r <= 1 -> length grad = length ws -> (forall j, In j ws -> (j < length w)%nat) ->
  dists_spec (enet_pen a r) w grad ws
    (pen_subdiff_distance (l1l2_penalty xops) (L1PlusL2 (Fin a) (Fin r)) (map Fin w) (map Fin grad) ws).
Proof. exact (l1l2_dists a r w grad ws). Qed.
Print Assumptions C08_elastic_net_scores_are_distances.
Theorem C08_mcp_scores_are_distances a gm w grad ws :
  0 <= a -> 0 < gm -> length grad = length ws -> (forall j, In j ws -> (j < length w)%nat) ->
  dists_spec (mcp_pen a gm) w grad ws
    (pen_subdiff_distance (mcp_penalty xops) (MCP (Fin a) (Fin gm)) (map Fin w) (map Fin grad) ws).
Proof. exact (mcp_dists a gm w grad ws). Qed.
Print Assumptions C08_mcp_scores_are_distances.
Example C08_nonvacuous : 0 <= 1 /\ length [3; 5] = length [2%nat; 0%nat] /\
  (forall j, In j [2%nat; 0%nat] -> (j < length [0; 7; -1]%R)%nat) /\
  pen_subdiff_distance (l1_penalty xops) (L1 (Fin 1)) (map Fin [0; 7; -1]) (map Fin [3; 5]) [2%nat; 0%nat]
    = Ret (map Fin [2; 4], Fin 4).
Proof. exact ex_l1_dist. Qed.

(** *** C09 *)
Theorem C09_l21_scores_are_distances n a r c r' c' W grad ws :
  0 <= a -> Forall (fun x => length x = n) W -> Forall (fun x => length x = n) grad ->
  length grad = length ws -> (forall j, In j ws -> (j < length W)%nat) ->
  vdists_spec n (fun x => a * norm2 x) W grad ws
    (bpen_subdiff_distance (l21_penalty xops) (L21 (Fin a)) (fmat r c W) (fmat r' c' grad) ws).
Proof. exact (l21_dists n a r c r' c' W grad ws). Qed.
Print Assumptions C09_l21_scores_are_distances.
Example C09_nonvacuous : 0 <= 1 /\ Forall (fun x : list R => length x = 2%nat) [[0; 0]; [3; 4]] /\
  Forall (fun x : list R => length x = 2%nat) [[3; 4]] /\
  length [[3; 4]] = length [0%nat] /\ (forall j, In j [0%nat] -> (j < length [[0; 0]; [3; 4]]%R)%nat) /\
  bpen_subdiff_distance (l21_penalty xops) (L21 (Fin 1)) (fmat 2 2 [[0; 0]; [3; 4]]) (fmat 1 2 [[3; 4]]) [0%nat]
    = Ret ([Fin 4], Fin 4).
Proof. exact ex_l21_dist. Qed.

(** *** C10 *)
Theorem C10_block_elastic_net_scores_nonzero_rows n a rho r c r' c' W grad ws :
  0 <= a -> 0 <= rho <= 1 -> Forall (fun x => length x = n) W -> Forall (fun x => length x = n) grad ->
  length grad = length ws -> (forall j, In j ws -> (j < length W)%nat) ->
  (forall j, In j ws -> norm2 (nth j W []) <> 0) ->
  vdists_spec n (benet_pen a rho) W grad ws
    (bpen_subdiff_distance (bl1l2_penalty xops) (BlockL1PlusL2 (Fin a) (Fin rho))
       (fmat r c W) (fmat r' c' grad) ws).
Proof. exact (bl1l2_dists n a rho r c r' c' W grad ws). Qed.
Print Assumptions C10_block_elastic_net_scores_nonzero_rows.
Example C10_nonvacuous : 0 <= 1 /\ 0 <= 1 / 2 <= 1 /\ norm2 (nth 0 [[3; 4]] []) <> 0.
Proof. exact ex_bl1l2_dist. Qed.
(** On zero rows: an optimal row scored positive, and a non-optimal row scored zero. *)
Theorem C10_block_elastic_net_scores_refuted :
  (exists a rho g sc d, 0 <= a /\ 0 <= rho <= 1 /\
     bpen_subdiff_distance (bl1l2_penalty xops) (BlockL1PlusL2 (Fin a) (Fin rho))
        (fmat 1 1 [[0]]) (fmat 1 1 [[g]]) [0%nat] = Ret ([Fin sc], Fin sc) /\
     is_vdist (vsubgrad 1 (benet_pen a rho) [0]) [- g] d /\ sc = 0 /\ 0 < d) /\
  (exists a rho g sc d, 0 <= a /\ 0 <= rho <= 1 /\
     bpen_subdiff_distance (bl1l2_penalty xops) (BlockL1PlusL2 (Fin a) (Fin rho))
        (fmat 1 1 [[0]]) (fmat 1 1 [[g]]) [0%nat] = Ret ([Fin sc], Fin sc) /\
     is_vdist (vsubgrad 1 (benet_pen a rho) [0]) [- g] d /\ 0 < sc /\ d = 0).
Proof. exact bl1l2_refuted. Qed.
Print Assumptions C10_block_elastic_net_scores_refuted.

(** *** C11 *)
Theorem C11_block_mcp_scores_outside_concave_range n a gm r c r' c' W grad ws :
  0 <= a -> 0 < gm -> Forall (fun x => length x = n) W -> Forall (fun x => length x = n) grad ->
  length grad = length ws -> (forall j, In j ws -> (j < length W)%nat) ->
  (forall j, In j ws -> norm2 (nth j W []) = 0 \/ a * gm <= norm2 (nth j W [])) ->
  vdists_spec n (bmcp_pen a gm) W grad ws
    (bpen_subdiff_distance (bmcp_penalty xops) (BlockMCP (Fin a) (Fin gm))
       (fmat r c W) (fmat r' c' grad) ws).
Proof. exact (bmcp_dists n a gm r c r' c' W grad ws). Qed.
Print Assumptions C11_block_mcp_scores_outside_concave_range.
Example C11_nonvacuous : 0 <= 1 /\ 0 < 3 /\ (norm2 [3; 4] = 0 \/ 1 * 3 <= norm2 [3; 4]).
Proof. exact ex_bmcp_dist. Qed.
(** In the concave range the score is blind to the gradient ... *)
Theorem C11_block_mcp_score_ignores_gradient a gm r c w g g' :
  0 < gm -> norm2 w <> 0 -> norm2 w < a * gm ->
  bpen_subdiff_distance (bmcp_penalty xops) (BlockMCP (Fin a) (Fin gm)) (fmat r c [w]) (fmat r c [g]) [0%nat]
  = bpen_subdiff_distance (bmcp_penalty xops) (BlockMCP (Fin a) (Fin gm)) (fmat r c [w]) (fmat r c [g']) [0%nat].
Proof. exact (bmcp_ignores a gm r c w g g'). Qed.
Print Assumptions C11_block_mcp_score_ignores_gradient.
(** ... hence not the distance: a stationary row is scored positive. *)
Theorem C11_block_mcp_scores_refuted :
  exists a gm w g sc d, 0 <= a /\ 1 <= gm /\
     bpen_subdiff_distance (bmcp_penalty xops) (BlockMCP (Fin a) (Fin gm))
        (fmat 1 1 [[w]]) (fmat 1 1 [[g]]) [0%nat] = Ret ([Fin sc], Fin sc) /\
     is_vdist (vsubgrad 1 (bmcp_pen a gm) [w]) [- g] d /\ 0 < sc /\ d = 0.
Proof. exact bmcp_refuted. Qed.
Print Assumptions C11_block_mcp_scores_refuted.
