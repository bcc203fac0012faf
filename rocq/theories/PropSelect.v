(** Property theorems C91 and C92: how many features a run can select, and settings without
    influence. *)
From Coq Require Import List ZArith Bool Arith Lia Reals.
From Verif Require Import Ops Arr MUtils MDatasets MDatafits MDatafitsMT MPenalties MBlockPenalties MCd MBcd MHyper MEstimators XR IEEE SpecSolve SpecLin SpecOpt SpecSelect PLaws PRunsEx PInert PSelectX PLimitsEx PSelectFit.
Import ListNotations.
Local Open Scope nat_scope.

(** *** C91 *)
(** any arithmetic, any penalty and datafit: at most [ws_start_size * 3^(k-1)] features after [k] outer iterations *)
Theorem C91_budget {F DM D P} (o : FOps F) (srt : list F -> list nat) (dm : DesignMatrix F DM) (df : Datafit F DM D) (pen : Penalty F P) s ds d q w :
  feq o (f0 o) (f0 o) = true -> solve o srt dm df pen s ds d q = Ret w -> selected o w <= budget 3 (s_ws_start_size s) (s_max_iterations s).
Proof. exact (solve_budget o srt dm df pen s ds d q w). Qed.
Print Assumptions C91_budget.
Theorem C91_budget_multitask {F DM D P} (o : FOps F) (srt : list F -> list nat) (dm : DesignMatrix F DM) (df : DatafitMT F DM D) (pen : PenaltyMT F P) s ds d q W :
  feq o (f0 o) (f0 o) = true -> solve_multi_task o srt dm df pen s ds d q = Ret W -> selected_rows o W <= budget 3 (s_ws_start_size s) (s_max_iterations s).
Proof. exact (solve_budget_mt o srt dm df pen s ds d q W). Qed.
Print Assumptions C91_budget_multitask.
Theorem C91_estimators {F} (o : FOps F) (srt : list F -> list nat) (E0 : feq o (f0 o) (f0 o) = true) pr (dd : dataset (mat F) F) (ds : dataset (csc F) F) :
  let n := budget 3 (p_ws_start_size pr) (p_max_iterations pr) in
  selects_at_most o n (fit_unchecked (lasso_check_ref o) (lasso_fit_dense o srt) pr dd) /\ selects_at_most o n (fit_unchecked (lasso_check_ref o) (lasso_fit_sparse o srt) pr ds) /\
  selects_at_most o n (fit_unchecked (elastic_net_check_ref o) (elastic_net_fit_dense o srt) pr dd) /\ selects_at_most o n (fit_unchecked (elastic_net_check_ref o) (elastic_net_fit_sparse o srt) pr ds) /\
  selects_at_most o n (fit_unchecked (mcp_check_ref o) (mcp_fit_dense o srt) pr dd) /\ selects_at_most o n (fit_unchecked (mcp_check_ref o) (mcp_fit_sparse o srt) pr ds) /\
  selects_rows_at_most o n (fit_unchecked (mt_lasso_check_ref o) (mt_lasso_fit_dense o srt) pr dd) /\ selects_rows_at_most o n (fit_unchecked (mt_lasso_check_ref o) (mt_lasso_fit_sparse o srt) pr ds) /\
  selects_rows_at_most o n (fit_unchecked (mt_elastic_net_check_ref o) (mt_elastic_net_fit_dense o srt) pr dd) /\ selects_rows_at_most o n (fit_unchecked (mt_elastic_net_check_ref o) (mt_elastic_net_fit_sparse o srt) pr ds) /\
  selects_rows_at_most o n (fit_unchecked (block_mcp_check_ref o) (block_mcp_fit_dense o srt) pr dd) /\ selects_rows_at_most o n (fit_unchecked (block_mcp_check_ref o) (block_mcp_fit_sparse o srt) pr ds).
Proof. exact (fits_budget o srt E0 pr dd ds). Qed.
Print Assumptions C91_estimators.
(** exact arithmetic, finite data: at most [ws_start_size * 2^(k-1)] features *)
Theorem C91_exact n p (Hn : 1 <= n) srt (VS : valid_sort xops srt) X y l k s fit m : single_fit srt n p X y l k s fit ->
  selects_at_most xops (budget 2 (s_ws_start_size s) m) (fit m).
Proof. exact (fun HF v => select_single n p Hn srt VS X y l k s fit m v HF). Qed.
Print Assumptions C91_exact.
Theorem C91_exact_multitask n p (Hn : 1 <= n) srt (VS : valid_sort xops srt) T X Y k s fit m : multi_fit srt n p T X Y k s fit ->
  selects_rows_at_most xops (budget 2 (s_ws_start_size s) m) (fit m).
Proof. exact (fun HF V => select_multi n p Hn srt VS T X Y k s fit m V HF). Qed.
Print Assumptions C91_exact_multitask.
(** the bound with base two is attained: 0, 1, 2, 4 features after 0, 1, 2, 3 iterations *)
Theorem C91_attained : shaped 4 4 eyeX /\ target1_wf 4 eyey /\
  map (fun k => match eyefit k with Ret (Ok w) => Some (selected ops64 w) | _ => None end) [0; 1; 2; 3; 4] = map Some [0; 1; 2; 4; 4] /\
  map (budget 2 1) [0; 1; 2; 3] = [0; 1; 2; 4].
Proof. exact (conj (proj1 eye_shaped) (conj (proj2 eye_shaped) (conj eye_counts eq_refl))). Qed.
Print Assumptions C91_attained.
Example C91_nonvacuous : feq ops64 (f0 ops64) (f0 ops64) = true /\ (exists v, fit_l lmX lmy (1/2)%R 0%R 1 = Ret (Ok v)) /\
  single_fit (dsort xops) 2 2 lmX lmy Squared (LassoPen (1/2)%R) (settings (gpr (1/2)%R 0%R)) (fit_l lmX lmy (1/2)%R 0%R).
Proof. exact (conj (law_eq0 _ ops64_laws) (conj (ex_exact_returns 1) (proj1 ex_half))). Qed.

(** *** C92 *)
(** acceleration does nothing when [max_epochs <= K]; nothing is assumed of penalty and datafit *)
Theorem C92_few_epochs {F DM D P} (o : FOps F) (srt : list F -> list nat) (dm : DesignMatrix F DM) (df : Datafit F DM D) (pen : Penalty F P) s ds d q w :
  s_max_epochs s <= s_K s -> solve o srt dm df pen (solver_use_acceleration true s) ds d q = Ret w -> solve o srt dm df pen (solver_use_acceleration false s) ds d q = Ret w.
Proof. exact (cd_idle o dm df pen srt ds d q _ _ _ _ _ _ _ _ w). Qed.
Print Assumptions C92_few_epochs.
Theorem C92_few_epochs_multitask {F DM D P} (o : FOps F) (srt : list F -> list nat) (dm : DesignMatrix F DM) (df : DatafitMT F DM D) (pen : PenaltyMT F P) s ds d q W :
  s_max_epochs s <= s_K s -> solve_multi_task o srt dm df pen (solver_use_acceleration true s) ds d q = Ret W -> solve_multi_task o srt dm df pen (solver_use_acceleration false s) ds d q = Ret W.
Proof. exact (bcd_idle o dm df pen srt ds d q _ _ _ _ _ _ _ _ W). Qed.
Print Assumptions C92_few_epochs_multitask.
(** the estimators, on every well-formed dataset: literally the same outcome *)
Theorem C92_few_epochs_estimators {F} (o : FOps F) (srt : list F -> list nat) (LF : float_laws o) (VS : valid_sort o srt) n p T X c t u pr :
  shaped n p X -> csc_wf n p c -> target1_wf n t -> target_wf n T u -> p_max_epochs pr <= p_K pr ->
  let tp := set_use_acceleration true pr in let fp := set_use_acceleration false pr in
  fit_unchecked (lasso_check_ref o) (lasso_fit_dense o srt) tp (Dataset X t) = fit_unchecked (lasso_check_ref o) (lasso_fit_dense o srt) fp (Dataset X t) /\
  fit_unchecked (lasso_check_ref o) (lasso_fit_sparse o srt) tp (Dataset c t) = fit_unchecked (lasso_check_ref o) (lasso_fit_sparse o srt) fp (Dataset c t) /\
  fit_unchecked (elastic_net_check_ref o) (elastic_net_fit_dense o srt) tp (Dataset X t) = fit_unchecked (elastic_net_check_ref o) (elastic_net_fit_dense o srt) fp (Dataset X t) /\
  fit_unchecked (elastic_net_check_ref o) (elastic_net_fit_sparse o srt) tp (Dataset c t) = fit_unchecked (elastic_net_check_ref o) (elastic_net_fit_sparse o srt) fp (Dataset c t) /\
  fit_unchecked (mcp_check_ref o) (mcp_fit_dense o srt) tp (Dataset X t) = fit_unchecked (mcp_check_ref o) (mcp_fit_dense o srt) fp (Dataset X t) /\
  fit_unchecked (mcp_check_ref o) (mcp_fit_sparse o srt) tp (Dataset c t) = fit_unchecked (mcp_check_ref o) (mcp_fit_sparse o srt) fp (Dataset c t) /\
  fit_unchecked (mt_lasso_check_ref o) (mt_lasso_fit_dense o srt) tp (Dataset X u) = fit_unchecked (mt_lasso_check_ref o) (mt_lasso_fit_dense o srt) fp (Dataset X u) /\
  fit_unchecked (mt_lasso_check_ref o) (mt_lasso_fit_sparse o srt) tp (Dataset c u) = fit_unchecked (mt_lasso_check_ref o) (mt_lasso_fit_sparse o srt) fp (Dataset c u) /\
  fit_unchecked (mt_elastic_net_check_ref o) (mt_elastic_net_fit_dense o srt) tp (Dataset X u) = fit_unchecked (mt_elastic_net_check_ref o) (mt_elastic_net_fit_dense o srt) fp (Dataset X u) /\
  fit_unchecked (mt_elastic_net_check_ref o) (mt_elastic_net_fit_sparse o srt) tp (Dataset c u) = fit_unchecked (mt_elastic_net_check_ref o) (mt_elastic_net_fit_sparse o srt) fp (Dataset c u) /\
  fit_unchecked (block_mcp_check_ref o) (block_mcp_fit_dense o srt) tp (Dataset X u) = fit_unchecked (block_mcp_check_ref o) (block_mcp_fit_dense o srt) fp (Dataset X u) /\
  fit_unchecked (block_mcp_check_ref o) (block_mcp_fit_sparse o srt) tp (Dataset c u) = fit_unchecked (block_mcp_check_ref o) (block_mcp_fit_sparse o srt) fp (Dataset c u).
Proof. exact (idle_fits o srt LF VS n p T X c t u pr). Qed.
Print Assumptions C92_few_epochs_estimators.
(** the next larger number of epochs: the outcomes differ, one of the two fits panics *)
Theorem C92_more_epochs_refuted : exists pr, p_max_epochs pr = S (p_K pr) /\
  fit_unchecked (lasso_check_ref ops64) (lasso_fit_dense ops64 srt64) (set_use_acceleration true pr) (Dataset rX ry) <>
  fit_unchecked (lasso_check_ref ops64) (lasso_fit_dense ops64 srt64) (set_use_acceleration false pr) (Dataset rX ry).
Proof. exact idle_differs. Qed.
Print Assumptions C92_more_epochs_refuted.
(** without acceleration [K] and [verbose] have no influence *)
Theorem C92_unused_K {F DM D P} (o : FOps F) (srt : list F -> list nat) (dm : DesignMatrix F DM) (df : Datafit F DM D) (pen : Penalty F P) s K v ds d q :
  s_use_acceleration s = false -> solve o srt dm df pen (solver_verbose v (solver_K K s)) ds d q = solve o srt dm df pen s ds d q.
Proof. exact (solve_unused_K o srt dm df pen s K v ds d q). Qed.
Print Assumptions C92_unused_K.
Theorem C92_unused_K_multitask {F DM D P} (o : FOps F) (srt : list F -> list nat) (dm : DesignMatrix F DM) (df : DatafitMT F DM D) (pen : PenaltyMT F P) s K v ds d q :
  s_use_acceleration s = false -> solve_multi_task o srt dm df pen (solver_verbose v (solver_K K s)) ds d q = solve_multi_task o srt dm df pen s ds d q.
Proof. exact (solve_unused_K_mt o srt dm df pen s K v ds d q). Qed.
Print Assumptions C92_unused_K_multitask.
(** every initial working-set size from the number of features on gives the same run *)
Theorem C92_large_working_set {F DM D P} (o : FOps F) (srt : list F -> list nat) (dm : DesignMatrix F DM) (df : Datafit F DM D) (pen : Penalty F P) s a b ds d q p :
  dm_n_features dm (design_matrix ds) = Ret p -> p <= a -> p <= b -> solve o srt dm df pen (solver_ws_start_size a s) ds d q = solve o srt dm df pen (solver_ws_start_size b s) ds d q.
Proof. exact (cd_ws o dm df pen srt ds d q a b _ _ _ _ _ _ p). Qed.
Print Assumptions C92_large_working_set.
Theorem C92_large_working_set_multitask {F DM D P} (o : FOps F) (srt : list F -> list nat) (dm : DesignMatrix F DM) (df : DatafitMT F DM D) (pen : PenaltyMT F P) s a b ds d q p :
  dm_n_features dm (design_matrix ds) = Ret p -> p <= a -> p <= b -> solve_multi_task o srt dm df pen (solver_ws_start_size a s) ds d q = solve_multi_task o srt dm df pen (solver_ws_start_size b s) ds d q.
Proof. exact (bcd_ws o dm df pen srt ds d q a b _ _ _ _ _ _ p). Qed.
Print Assumptions C92_large_working_set_multitask.
(** no epochs or no iterations: the zero model, without any sign that nothing was fitted *)
Theorem C92_no_epochs {F DM D P} (o : FOps F) (srt : list F -> list nat) (dm : DesignMatrix F DM) (df : Datafit F DM D) (pen : Penalty F P) s ds d q p w :
  dm_n_features dm (design_matrix ds) = Ret p -> s_max_epochs s = 0 \/ s_max_iterations s = 0 -> solve o srt dm df pen s ds d q = Ret w -> w = repeat (f0 o) p.
Proof. exact (cd_none o dm df pen srt ds d q _ _ _ _ _ _ _ w p). Qed.
Print Assumptions C92_no_epochs.
Theorem C92_no_epochs_multitask {F DM D P} (o : FOps F) (srt : list F -> list nat) (dm : DesignMatrix F DM) (df : DatafitMT F DM D) (pen : PenaltyMT F P) s ds d q p W :
  dm_n_features dm (design_matrix ds) = Ret p -> s_max_epochs s = 0 \/ s_max_iterations s = 0 -> solve_multi_task o srt dm df pen s ds d q = Ret W ->
  W = Mat p (n_tasks (dtargets ds)) (repeat (repeat (f0 o) (n_tasks (dtargets ds))) p).
Proof. exact (bcd_none o dm df pen srt ds d q _ _ _ _ _ _ _ W p). Qed.
Print Assumptions C92_no_epochs_multitask.
Example C92_nonvacuous : shaped 3 2 rX /\ csc_wf 3 2 rC /\ target1_wf 3 ry /\ target_wf 3 1 ry /\ p_max_epochs idlepr <= p_K idlepr /\
  map (fun e => kind (idlefit (fst e) (snd e))) [(true, 5); (true, 6); (false, 6); (true, 0)] = [Some 1; None; Some 1; Some 0].
Proof. exact (conj rX_shaped (conj rC_wf (conj ry_wf (conj (conj eq_refl eq_refl) (conj (le_n 5) idle_kinds))))). Qed.
