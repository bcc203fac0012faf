(** Property theorems C18, C38 and C45: fits of related data. *)
From Coq Require Import List ZArith Bool Arith Lia Reals.
From Verif Require Import Ops Arr MUtils MDatasets MDatafits MDatafitsMT MPenalties MBlockPenalties MCd MBcd MHyper MEstimators XR IEEE RSum SpecLin SpecData SpecSym SpecSolve PLaws PDataEx PRunsEx PSymEx PSymProps.
Import ListNotations.
Open Scope R_scope.

(** *** C18 *)
Theorem C18_sparse_fit_equals_dense srt (VS : valid_sort xops srt) n p E c y t pr a r : (1 <= n)%nat ->
  csc_of n p E c -> no_repeats p E -> single_target_of n y t -> p_alpha pr = Fin a -> p_shape pr = Fin r ->
  let X := xm n p (entry E) in
  fit_unchecked (lasso_check_ref xops) (lasso_fit_sparse xops srt) pr (Dataset c t)
    = fit_unchecked (lasso_check_ref xops) (lasso_fit_dense xops srt) pr (Dataset X t) /\
  fit_unchecked (elastic_net_check_ref xops) (elastic_net_fit_sparse xops srt) pr (Dataset c t)
    = fit_unchecked (elastic_net_check_ref xops) (elastic_net_fit_dense xops srt) pr (Dataset X t) /\
  fit_unchecked (mcp_check_ref xops) (mcp_fit_sparse xops srt) pr (Dataset c t)
    = fit_unchecked (mcp_check_ref xops) (mcp_fit_dense xops srt) pr (Dataset X t).
Proof. exact (fun Hn HC HR => c18 srt VS n p Hn E c HC HR y t pr a r). Qed.
Print Assumptions C18_sparse_fit_equals_dense.
Theorem C18_sparse_logistic_equals_dense srt (VS : valid_sort xops srt) n p E c y t (s : solver xr) d d' a r g : (1 <= n)%nat ->
  csc_of n p E c -> no_repeats p E -> single_target_of n y t -> 0 <= a -> 0 <= r <= 1 -> 0 < g ->
  let X := xm n p (entry E) in
  solve xops srt (sparse_dm xops) (log_sparse xops) (l1_penalty xops) s (Dataset c t) d (L1 (Fin a))
    = solve xops srt (dense_dm xops) (log_dense xops) (l1_penalty xops) s (Dataset X t) d' (L1 (Fin a)) /\
  solve xops srt (sparse_dm xops) (log_sparse xops) (l1l2_penalty xops) s (Dataset c t) d (L1PlusL2 (Fin a) (Fin r))
    = solve xops srt (dense_dm xops) (log_dense xops) (l1l2_penalty xops) s (Dataset X t) d' (L1PlusL2 (Fin a) (Fin r)) /\
  solve xops srt (sparse_dm xops) (log_sparse xops) (mcp_penalty xops) s (Dataset c t) d (MCP (Fin a) (Fin g))
    = solve xops srt (dense_dm xops) (log_dense xops) (mcp_penalty xops) s (Dataset X t) d' (MCP (Fin a) (Fin g)).
Proof. exact (fun Hn HC HR => c18_logistic srt VS n p Hn E c HC HR y t s d d' a r g). Qed.
Print Assumptions C18_sparse_logistic_equals_dense.
(** the multi-task fits; [0 < a], [0 < a * r], [0 < r] exclude the parameters for which the block
    proximal operators divide by zero *)
Theorem C18_sparse_multitask_equals_dense srt (VS : valid_sort xops srt) n p T E c Y t pr a r : (1 <= n)%nat ->
  csc_of n p E c -> no_repeats p E -> multi_target_of n T Y t -> p_alpha pr = Fin a -> p_shape pr = Fin r ->
  let X := xm n p (entry E) in
  (0 < a -> fit_unchecked (mt_lasso_check_ref xops) (mt_lasso_fit_sparse xops srt) pr (Dataset c t)
    = fit_unchecked (mt_lasso_check_ref xops) (mt_lasso_fit_dense xops srt) pr (Dataset X t)) /\
  (0 < a * r -> fit_unchecked (mt_elastic_net_check_ref xops) (mt_elastic_net_fit_sparse xops srt) pr (Dataset c t)
    = fit_unchecked (mt_elastic_net_check_ref xops) (mt_elastic_net_fit_dense xops srt) pr (Dataset X t)) /\
  (0 < r -> fit_unchecked (block_mcp_check_ref xops) (block_mcp_fit_sparse xops srt) pr (Dataset c t)
    = fit_unchecked (block_mcp_check_ref xops) (block_mcp_fit_dense xops srt) pr (Dataset X t)).
Proof. exact (fun Hn HC HR => c18_mt srt VS n p Hn E c HC HR T Y t pr a r). Qed.
Print Assumptions C18_sparse_multitask_equals_dense.
Example C18_nonvacuous : valid_sort xops (dsort xops) /\ csc_of 3 3 exE exC /\ no_repeats 3 exE /\
  single_target_of 3 (fun i => INR i - 1) (T1 (xv 3 (fun i => INR i - 1))) /\
  multi_target_of 3 2 (fun i t => INR i - INR t) (T2 (xm 3 2 (fun i t => INR i - INR t))).
Proof. exact (conj xr_sort (conj (proj1 ex_csc) (conj (proj1 (proj2 ex_csc)) (conj (proj1 ex_target) (proj1 (proj2 (proj2 ex_target))))))). Qed.

(** *** C38 *)
Theorem C38_one_task_dense srt (VS : valid_sort xops srt) n p X y t pr a : (1 <= n)%nat ->
  single_target_of n y t -> p_alpha pr = Fin a -> 0 < a ->
  fit_unchecked (mt_lasso_check_ref xops) (mt_lasso_fit_dense xops srt) pr (Dataset (xm n p X) t)
  = bind (fit_unchecked (lasso_check_ref xops) (lasso_fit_dense xops srt) pr (Dataset (xm n p X) t))
         (fun r => Ret (map_ok column r)).
Proof. exact (fun Hn => c38_dense srt VS n p Hn X y t pr a). Qed.
Print Assumptions C38_one_task_dense.
Theorem C38_one_task_sparse srt (VS : valid_sort xops srt) n p E c y t pr a : (1 <= n)%nat ->
  csc_of n p E c -> no_repeats p E -> single_target_of n y t -> p_alpha pr = Fin a -> 0 < a ->
  fit_unchecked (mt_lasso_check_ref xops) (mt_lasso_fit_sparse xops srt) pr (Dataset c t)
  = bind (fit_unchecked (lasso_check_ref xops) (lasso_fit_sparse xops srt) pr (Dataset c t))
         (fun r => Ret (map_ok column r)).
Proof. exact (fun Hn => c38_sparse srt VS n p Hn E c y t pr a). Qed.
Print Assumptions C38_one_task_sparse.
Example C38_nonvacuous : single_target_of 3 (fun i => INR i - 1) (T2 (xm 3 1 (fun i _ => INR i - 1))) /\
  column [Fin 2; Fin 3] = Mat 2 1 [[Fin 2]; [Fin 3]].
Proof. exact (conj (proj1 (proj2 ex_target)) eq_refl). Qed.
(** the elastic-net estimators do not agree on a single task *)
Theorem C38_elastic_net_refuted : exists pr X y w,
  fit_unchecked (elastic_net_check_ref ops64) (elastic_net_fit_dense ops64 srt64) pr (Dataset X y) = Ret (Ok [w]) /\
  flt ops64 (flit ops64 1 10) w = true /\
  fit_unchecked (mt_elastic_net_check_ref ops64) (mt_elastic_net_fit_dense ops64 srt64) pr (Dataset X y)
    = Ret (Ok (column [f0 ops64])).
Proof. exact enet_one_task_refuted. Qed.
Print Assumptions C38_elastic_net_refuted.

(** *** C45 *)
Theorem C45_row_order_dense srt (VS : valid_sort xops srt) n p sg X y t t' pr a r : (1 <= n)%nat -> row_perm n sg ->
  single_target_of n y t -> single_target_of n (fun i => y (sg i)) t' -> p_alpha pr = Fin a -> p_shape pr = Fin r ->
  let D := Dataset (xm n p X) t in let D' := Dataset (xm n p (fun i j => X (sg i) j)) t' in
  fit_unchecked (lasso_check_ref xops) (lasso_fit_dense xops srt) pr D'
    = fit_unchecked (lasso_check_ref xops) (lasso_fit_dense xops srt) pr D /\
  fit_unchecked (elastic_net_check_ref xops) (elastic_net_fit_dense xops srt) pr D'
    = fit_unchecked (elastic_net_check_ref xops) (elastic_net_fit_dense xops srt) pr D /\
  fit_unchecked (mcp_check_ref xops) (mcp_fit_dense xops srt) pr D'
    = fit_unchecked (mcp_check_ref xops) (mcp_fit_dense xops srt) pr D.
Proof. exact (fun Hn => c45_rows srt VS n p Hn sg X y t t' pr a r). Qed.
Print Assumptions C45_row_order_dense.
Theorem C45_row_order_sparse srt (VS : valid_sort xops srt) n p sg E c E' c' y t t' pr a r : (1 <= n)%nat -> row_perm n sg ->
  single_target_of n y t -> single_target_of n (fun i => y (sg i)) t' ->
  csc_of n p E c -> no_repeats p E -> csc_of n p E' c' -> no_repeats p E' ->
  (forall i j, (i < n)%nat -> (j < p)%nat -> entry E' i j = entry E (sg i) j) ->
  p_alpha pr = Fin a -> p_shape pr = Fin r ->
  let D := Dataset c t in let D' := Dataset c' t' in
  fit_unchecked (lasso_check_ref xops) (lasso_fit_sparse xops srt) pr D'
    = fit_unchecked (lasso_check_ref xops) (lasso_fit_sparse xops srt) pr D /\
  fit_unchecked (elastic_net_check_ref xops) (elastic_net_fit_sparse xops srt) pr D'
    = fit_unchecked (elastic_net_check_ref xops) (elastic_net_fit_sparse xops srt) pr D /\
  fit_unchecked (mcp_check_ref xops) (mcp_fit_sparse xops srt) pr D'
    = fit_unchecked (mcp_check_ref xops) (mcp_fit_sparse xops srt) pr D.
Proof. exact (fun Hn => c45_rows_sparse srt VS n p Hn sg E c E' c' y t t' pr a r). Qed.
Print Assumptions C45_row_order_sparse.
Theorem C45_row_order_logistic srt (VS : valid_sort xops srt) n p sg X y t t' (s : solver xr) d a : (1 <= n)%nat -> row_perm n sg ->
  single_target_of n y t -> single_target_of n (fun i => y (sg i)) t' -> 0 <= a ->
  solve xops srt (dense_dm xops) (log_dense xops) (l1_penalty xops) s (Dataset (xm n p (fun i j => X (sg i) j)) t') d (L1 (Fin a))
  = solve xops srt (dense_dm xops) (log_dense xops) (l1_penalty xops) s (Dataset (xm n p X) t) d (L1 (Fin a)).
Proof. exact (fun Hn => c45_rows_logistic srt VS n p Hn sg X y t t' s d a). Qed.
Print Assumptions C45_row_order_logistic.
Theorem C45_row_order_multitask srt (VS : valid_sort xops srt) n p T sg X Y t t' pr a r : (1 <= n)%nat -> row_perm n sg ->
  multi_target_of n T Y t -> multi_target_of n T (fun i k => Y (sg i) k) t' -> p_alpha pr = Fin a -> p_shape pr = Fin r ->
  let D := Dataset (xm n p X) t in let D' := Dataset (xm n p (fun i j => X (sg i) j)) t' in
  (0 < a -> fit_unchecked (mt_lasso_check_ref xops) (mt_lasso_fit_dense xops srt) pr D'
    = fit_unchecked (mt_lasso_check_ref xops) (mt_lasso_fit_dense xops srt) pr D) /\
  (0 < a * r -> fit_unchecked (mt_elastic_net_check_ref xops) (mt_elastic_net_fit_dense xops srt) pr D'
    = fit_unchecked (mt_elastic_net_check_ref xops) (mt_elastic_net_fit_dense xops srt) pr D) /\
  (0 < r -> fit_unchecked (block_mcp_check_ref xops) (block_mcp_fit_dense xops srt) pr D'
    = fit_unchecked (block_mcp_check_ref xops) (block_mcp_fit_dense xops srt) pr D).
Proof. exact (fun Hn => c45_rows_mt srt VS n p Hn T sg X Y t t' pr a r). Qed.
Print Assumptions C45_row_order_multitask.
(** column signs, without extrapolation *)
Theorem C45_column_signs srt (VS : valid_sort xops srt) n p s X y t pr a r : (1 <= n)%nat -> signs p s ->
  single_target_of n y t -> p_alpha pr = Fin a -> p_shape pr = Fin r -> p_use_acceleration pr = false ->
  let D := Dataset (xm n p X) t in let D' := Dataset (xm n p (fun i j => s j * X i j)) t in
  fits_flip p s (fit_unchecked (lasso_check_ref xops) (lasso_fit_dense xops srt) pr D)
                (fit_unchecked (lasso_check_ref xops) (lasso_fit_dense xops srt) pr D') /\
  fits_flip p s (fit_unchecked (elastic_net_check_ref xops) (elastic_net_fit_dense xops srt) pr D)
                (fit_unchecked (elastic_net_check_ref xops) (elastic_net_fit_dense xops srt) pr D') /\
  fits_flip p s (fit_unchecked (mcp_check_ref xops) (mcp_fit_dense xops srt) pr D)
                (fit_unchecked (mcp_check_ref xops) (mcp_fit_dense xops srt) pr D').
Proof. exact (fun Hn => c45_signs srt VS n p Hn s X y t pr a r). Qed.
Print Assumptions C45_column_signs.
Theorem C45_column_signs_multitask srt (VS : valid_sort xops srt) n p T s X Y t pr a r : (1 <= n)%nat -> signs p s ->
  multi_target_of n T Y t -> p_alpha pr = Fin a -> p_shape pr = Fin r -> p_use_acceleration pr = false ->
  let D := Dataset (xm n p X) t in let D' := Dataset (xm n p (fun i j => s j * X i j)) t in
  (0 < a -> fits_flip_mt p T s (fit_unchecked (mt_lasso_check_ref xops) (mt_lasso_fit_dense xops srt) pr D)
                               (fit_unchecked (mt_lasso_check_ref xops) (mt_lasso_fit_dense xops srt) pr D')) /\
  (0 < a * r -> fits_flip_mt p T s (fit_unchecked (mt_elastic_net_check_ref xops) (mt_elastic_net_fit_dense xops srt) pr D)
                               (fit_unchecked (mt_elastic_net_check_ref xops) (mt_elastic_net_fit_dense xops srt) pr D')) /\
  (0 < r -> fits_flip_mt p T s (fit_unchecked (block_mcp_check_ref xops) (block_mcp_fit_dense xops srt) pr D)
                               (fit_unchecked (block_mcp_check_ref xops) (block_mcp_fit_dense xops srt) pr D')).
Proof. exact (fun Hn => c45_signs_mt srt VS n p Hn T s X Y t pr a r). Qed.
Print Assumptions C45_column_signs_multitask.
(** with extrapolation the claim about signs fails: in doubles, negating the first column changes
    the magnitude of the first coefficient by more than 1/2 *)
Theorem C45_column_signs_accelerated_refuted : exists pr : params f64, exists X X' y, exists x x',
  mrows X' = map neg_head (mrows X) /\
  head_of (fit_unchecked (lasso_check_ref ops64) (lasso_fit_dense ops64 srt64) pr (Dataset X y)) = Some x /\
  head_of (fit_unchecked (lasso_check_ref ops64) (lasso_fit_dense ops64 srt64) pr (Dataset X' y)) = Some x' /\
  flt ops64 (fadd ops64 (fabs ops64 x') (flit ops64 1 2)) (fabs ops64 x) = true.
Proof. exact flip_refuted. Qed.
Print Assumptions C45_column_signs_accelerated_refuted.
Example C45_nonvacuous : row_perm 3 exsg /\ exsg 0%nat = 1%nat /\ signs 3 exs /\ exs 1%nat = -1.
Proof. exact ex_perm. Qed.
Example C45_sparse_nonvacuous : csc_of 3 3 exE' exC' /\ no_repeats 3 exE' /\
  forall i j, (i < 3)%nat -> (j < 3)%nat -> entry exE' i j = entry exE (exsg i) j.
Proof. exact ex_csc'. Qed.
