(** Property theorems C71 onwards: NaN in the data. *)
From Coq Require Import List ZArith Bool Arith Lia.
From Verif Require Import Ops Arr MUtils MDatasets MDatafits MDatafitsMT MPenalties MBlockPenalties MCd MBcd MHyper MEstimators XR IEEE
  SpecSolve SpecNan PLaws PRunsEx PSortNanFit PPoisonEst PNanCol.
Import ListNotations.
Local Open Scope nat_scope.

(** *** C71 *)
Theorem C71_nan_comparison_never_panics {F} (o : FOps F) (LF : float_laws o) (srt : list F -> list nat)
    (pr : params F) (dd : dataset (mat F) F) (dc : dataset (csc F) F) :
  (fit_unchecked (lasso_check_ref o) (lasso_fit_dense o srt) pr dd <> Panic PNaNCmp /\
   fit_unchecked (elastic_net_check_ref o) (elastic_net_fit_dense o srt) pr dd <> Panic PNaNCmp /\
   fit_unchecked (mcp_check_ref o) (mcp_fit_dense o srt) pr dd <> Panic PNaNCmp /\
   fit_unchecked (mt_lasso_check_ref o) (mt_lasso_fit_dense o srt) pr dd <> Panic PNaNCmp /\
   fit_unchecked (mt_elastic_net_check_ref o) (mt_elastic_net_fit_dense o srt) pr dd <> Panic PNaNCmp /\
   fit_unchecked (block_mcp_check_ref o) (block_mcp_fit_dense o srt) pr dd <> Panic PNaNCmp) /\
  (fit_unchecked (lasso_check_ref o) (lasso_fit_sparse o srt) pr dc <> Panic PNaNCmp /\
   fit_unchecked (elastic_net_check_ref o) (elastic_net_fit_sparse o srt) pr dc <> Panic PNaNCmp /\
   fit_unchecked (mcp_check_ref o) (mcp_fit_sparse o srt) pr dc <> Panic PNaNCmp /\
   fit_unchecked (mt_lasso_check_ref o) (mt_lasso_fit_sparse o srt) pr dc <> Panic PNaNCmp /\
   fit_unchecked (mt_elastic_net_check_ref o) (mt_elastic_net_fit_sparse o srt) pr dc <> Panic PNaNCmp /\
   fit_unchecked (block_mcp_check_ref o) (block_mcp_fit_sparse o srt) pr dc <> Panic PNaNCmp).
Proof. exact (nc_estimators o LF srt pr dd dc). Qed.
Print Assumptions C71_nan_comparison_never_panics.
Theorem C71_nan_comparison_never_panics_solver {F} (o : FOps F) (LF : float_laws o) (srt : list F -> list nat)
    (s : solver F) (dd : dataset (mat F) F) (dc : dataset (csc F) F) :
  (forall d q, solve o srt (dense_dm o) (quad_dense o) (l1_penalty o) s dd d q <> Panic PNaNCmp) /\
  (forall d q, solve o srt (dense_dm o) (quad_dense o) (l1l2_penalty o) s dd d q <> Panic PNaNCmp) /\
  (forall d q, solve o srt (dense_dm o) (quad_dense o) (mcp_penalty o) s dd d q <> Panic PNaNCmp) /\
  (forall d q, solve o srt (dense_dm o) (quad_dense o) (l05_penalty o) s dd d q <> Panic PNaNCmp) /\
  (forall d q, solve o srt (dense_dm o) (log_dense o) (l1_penalty o) s dd d q <> Panic PNaNCmp) /\
  (forall d q, solve o srt (dense_dm o) (log_dense o) (l1l2_penalty o) s dd d q <> Panic PNaNCmp) /\
  (forall d q, solve o srt (dense_dm o) (log_dense o) (mcp_penalty o) s dd d q <> Panic PNaNCmp) /\
  (forall d q, solve o srt (dense_dm o) (log_dense o) (l05_penalty o) s dd d q <> Panic PNaNCmp) /\
  (forall d q, solve o srt (sparse_dm o) (quad_sparse o) (l1_penalty o) s dc d q <> Panic PNaNCmp) /\
  (forall d q, solve o srt (sparse_dm o) (quad_sparse o) (l1l2_penalty o) s dc d q <> Panic PNaNCmp) /\
  (forall d q, solve o srt (sparse_dm o) (quad_sparse o) (mcp_penalty o) s dc d q <> Panic PNaNCmp) /\
  (forall d q, solve o srt (sparse_dm o) (quad_sparse o) (l05_penalty o) s dc d q <> Panic PNaNCmp) /\
  (forall d q, solve o srt (sparse_dm o) (log_sparse o) (l1_penalty o) s dc d q <> Panic PNaNCmp) /\
  (forall d q, solve o srt (sparse_dm o) (log_sparse o) (l1l2_penalty o) s dc d q <> Panic PNaNCmp) /\
  (forall d q, solve o srt (sparse_dm o) (log_sparse o) (mcp_penalty o) s dc d q <> Panic PNaNCmp) /\
  (forall d q, solve o srt (sparse_dm o) (log_sparse o) (l05_penalty o) s dc d q <> Panic PNaNCmp).
Proof. exact (nc_solver o LF srt s dd dc). Qed.
Print Assumptions C71_nan_comparison_never_panics_solver.
Theorem C71_nan_comparison_never_panics_solver_multitask {F} (o : FOps F) (LF : float_laws o) (srt : list F -> list nat)
    (s : solver F) (dd : dataset (mat F) F) (dc : dataset (csc F) F) :
  (forall d q, solve_multi_task o srt (dense_dm o) (qmt_dense o) (l21_penalty o) s dd d q <> Panic PNaNCmp) /\
  (forall d q, solve_multi_task o srt (dense_dm o) (qmt_dense o) (bl1l2_penalty o) s dd d q <> Panic PNaNCmp) /\
  (forall d q, solve_multi_task o srt (dense_dm o) (qmt_dense o) (bmcp_penalty o) s dd d q <> Panic PNaNCmp) /\
  (forall d q, solve_multi_task o srt (sparse_dm o) (qmt_sparse o) (l21_penalty o) s dc d q <> Panic PNaNCmp) /\
  (forall d q, solve_multi_task o srt (sparse_dm o) (qmt_sparse o) (bl1l2_penalty o) s dc d q <> Panic PNaNCmp) /\
  (forall d q, solve_multi_task o srt (sparse_dm o) (qmt_sparse o) (bmcp_penalty o) s dc d q <> Panic PNaNCmp).
Proof. exact (nc_solver_mt o LF srt s dd dc). Qed.
Print Assumptions C71_nan_comparison_never_panics_solver_multitask.
Theorem C71_sort_panics_iff {F} (o : FOps F) (srt : list F -> list nat) l :
  argsort_desc o srt l = Panic PNaNCmp <-> 2 <= length l /\ exists x, In x l /\ fisnan o x = true.
Proof. exact (sort_panics_iff o srt l). Qed.
Print Assumptions C71_sort_panics_iff.
(** the comparison itself does panic on a NaN; a Lasso fit on doubles with a NaN in the design returns *)
Example C71_nonvacuous : float_laws ops64 /\ fisnan ops64 nan64 = true /\ argsort_desc ops64 srt64 [nan64; f64_of 1] = Panic PNaNCmp /\
  match fit_unchecked (lasso_check_ref ops64) (lasso_fit_dense ops64 srt64) npr (Dataset nX ry) with
  | Ret (Ok [a; b]) => negb (feq ops64 a (f0 ops64)) && feq ops64 b (f0 ops64) | _ => false end = true.
Proof. exact (conj ops64_laws (conj (proj1 ex_nan_panic) (conj (proj2 ex_nan_panic) ex_nan_returns))). Qed.

(** *** C72 *)
Theorem C72_nan_spreads : nan_spreads xops /\
  forall prec emax Hp Hm m, reduces prec emax Hp Hm m -> nan_spreads (ieee_ops prec emax Hp Hm m).
Proof. exact (conj xr_spreads ieee_spreads). Qed.
Print Assumptions C72_nan_spreads.
Theorem C72_one_nan_ruins_elastic_net {F} (o : FOps F) (LF : float_laws o) (SP : nan_spreads o) (srt : list F -> list nat) (VS : valid_sort o srt)
    n p X t pr j w : shaped n p X -> nan_column o X j -> p <= p_ws_start_size pr -> 2 <= p_max_epochs pr -> target1_wf n t ->
  fit_unchecked (elastic_net_check_ref o) (elastic_net_fit_dense o srt) pr (Dataset X t) = Ret (Ok w) ->
  w = repeat (f0 o) p \/ forall k x, k < p -> nth_error w k = Some x ->
    (feq o (mean_square o X k) (f0 o) = true -> x = f0 o) /\
    (feq o (mean_square o X k) (f0 o) = false -> zero_or_nan o x) /\ (nan_column o X k -> fisnan o x = true).
Proof. exact (fun HX HC Hs He Ht E => ruin_enet o LF SP srt VS n p X t pr j HX HC Hs He w Ht E). Qed.
Print Assumptions C72_one_nan_ruins_elastic_net.
Theorem C72_one_nan_ruins_mcp {F} (o : FOps F) (LF : float_laws o) (SP : nan_spreads o) (srt : list F -> list nat) (VS : valid_sort o srt)
    n p X t pr j w : shaped n p X -> nan_column o X j -> p <= p_ws_start_size pr -> 2 <= p_max_epochs pr -> target1_wf n t ->
  fit_unchecked (mcp_check_ref o) (mcp_fit_dense o srt) pr (Dataset X t) = Ret (Ok w) ->
  w = repeat (f0 o) p \/ forall k x, k < p -> nth_error w k = Some x ->
    (feq o (mean_square o X k) (f0 o) = true -> x = f0 o) /\ (feq o (mean_square o X k) (f0 o) = false -> fisnan o x = true).
Proof. exact (fun HX HC Hs He Ht E => ruin_mcp o LF SP srt VS n p X t pr j HX HC Hs He w Ht E). Qed.
Print Assumptions C72_one_nan_ruins_mcp.
Theorem C72_one_nan_ruins_multitask {F} (o : FOps F) (LF : float_laws o) (SP : nan_spreads o) (srt : list F -> list nat) (VS : valid_sort o srt)
    n p T X t pr j W : shaped n p X -> nan_column o X j -> p <= p_ws_start_size pr -> 2 <= p_max_epochs pr -> target_wf n T t -> 1 <= T ->
  fit_unchecked (mt_lasso_check_ref o) (mt_lasso_fit_dense o srt) pr (Dataset X t) = Ret (Ok W) \/
  fit_unchecked (mt_elastic_net_check_ref o) (mt_elastic_net_fit_dense o srt) pr (Dataset X t) = Ret (Ok W) \/
  fit_unchecked (block_mcp_check_ref o) (block_mcp_fit_dense o srt) pr (Dataset X t) = Ret (Ok W) -> ruined_multitask o X p T W.
Proof. exact (fun HX HC Hs He Ht HT E => ruin_mt o LF SP srt VS n p X t pr j HX HC Hs He T W Ht HT E). Qed.
Print Assumptions C72_one_nan_ruins_multitask.
(** doubles, three samples, two columns, one NaN in column 1: the fits return and carry NaN *)
Example C72_nonvacuous : float_laws ops64 /\ valid_sort ops64 srt64 /\ (nan_spreads ops64 /\ shaped 3 2 nX /\ nan_column ops64 nX 1) /\
  (2 <= p_ws_start_size npr_en /\ 2 <= p_max_epochs npr_en /\ 2 <= p_ws_start_size npr_mcp /\ 2 <= p_max_epochs npr_mcp /\ target1_wf 3 ry /\ target_wf 3 1 ry) /\
  match fit_unchecked (elastic_net_check_ref ops64) (elastic_net_fit_dense ops64 srt64) npr_en (Dataset nX ry) with
  | Ret (Ok [a; b]) => (feq ops64 a (f0 ops64) || fisnan ops64 a) && fisnan ops64 b | _ => false end &&
  match fit_unchecked (mcp_check_ref ops64) (mcp_fit_dense ops64 srt64) npr_mcp (Dataset nX ry) with
  | Ret (Ok [a; b]) => fisnan ops64 a && fisnan ops64 b | _ => false end &&
  match fit_unchecked (mt_lasso_check_ref ops64) (mt_lasso_fit_dense ops64 srt64) npr_en (Dataset nX ry) with
  | Ret (Ok W) => forallb (forallb (fisnan ops64)) (mrows W) | _ => false end = true.
Proof. exact (conj ops64_laws (conj srt64_ok (conj ex_spread (conj ex_side ex_ruin)))). Qed.

(** *** C73 *)
Theorem C73_lasso_never_selects_a_nan_column {F} (o : FOps F) (SP : nan_spreads o) (srt : list F -> list nat) (pr : params F) j t w x :
  nth_error w j = Some x ->
  (forall X, mwf X -> nan_column o X j -> fit_unchecked (lasso_check_ref o) (lasso_fit_dense o srt) pr (Dataset X t) = Ret (Ok w) -> x = f0 o) /\
  (forall X, nan_column_csc o X j -> fit_unchecked (lasso_check_ref o) (lasso_fit_sparse o srt) pr (Dataset X t) = Ret (Ok w) -> x = f0 o).
Proof. exact (off_lasso_fits o SP srt pr j t w x). Qed.
Print Assumptions C73_lasso_never_selects_a_nan_column.
Theorem C73_logistic_never_selects_a_nan_column {F} (o : FOps F) (SP : nan_spreads o) (EL : exp_log_nan o) (srt : list F -> list nat)
    n p (s : solver F) d q j t w x : target1_wf n t -> nth_error w j = Some x ->
  (forall X, shaped n p X -> nan_column o X j -> solve o srt (dense_dm o) (log_dense o) (l1_penalty o) s (Dataset X t) d q = Ret w -> x = f0 o) /\
  (forall X, nan_column_csc o X j -> solve o srt (sparse_dm o) (log_sparse o) (l1_penalty o) s (Dataset X t) d q = Ret w -> x = f0 o).
Proof. exact (off_log_fits o SP EL srt n p s d q j t w x). Qed.
Print Assumptions C73_logistic_never_selects_a_nan_column.
(** doubles: column 1 has a NaN, its coefficient is zero and the other one is not *)
Example C73_nonvacuous : (nan_spreads ops64 /\ shaped 3 2 nX /\ nan_column ops64 nX 1) /\ (nan_column_csc ops64 nC 1 /\ exp_log_nan ops64 /\ target1_wf 3 ry) /\
  match fit_unchecked (lasso_check_ref ops64) (lasso_fit_dense ops64 srt64) npr (Dataset nX ry) with
  | Ret (Ok [a; b]) => negb (feq ops64 a (f0 ops64)) && feq ops64 b (f0 ops64) | _ => false end = true /\
  match fit_unchecked (lasso_check_ref ops64) (lasso_fit_sparse ops64 srt64) npr (Dataset nC ry) with
  | Ret (Ok [a; b]) => negb (feq ops64 a (f0 ops64)) && feq ops64 b (f0 ops64) | _ => false end &&
  match solve ops64 srt64 (dense_dm ops64) (log_dense ops64) (l1_penalty ops64) nsol (Dataset nX ry) (logistic_new ops64) (L1 (flit ops64 1 100)) with
  | Ret [a; b] => negb (feq ops64 a (f0 ops64)) && feq ops64 b (f0 ops64) | _ => false end = true.
Proof. exact (conj ex_spread (conj ex_csc (conj ex_nan_returns ex_off_sparse))). Qed.
