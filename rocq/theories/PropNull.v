(** Property theorems C10 (solver level), C19, C20, C31, C40, C46 and C48: when the null model
    is returned, and how the solvers move away from it.
    [fit m] is a call with iteration budget [m] (see [SpecOpt]). *)
From Coq Require Import List ZArith Bool Arith Lia Reals.
From Flocq Require Import Core BinarySingleNaN.
From Verif Require Import Ops Arr MUtils MDatasets MDatafits MDatafitsMT MPenalties MBlockPenalties MCd MBcd MHyper MEstimators XR IEEE RSum SpecPen SpecLin SpecData SpecDatafit SpecSolve SpecOpt SpecAccel SpecNull PLaws PDataProps PDataEx PRunsEx POptEx PStrict PNullFit PNullMt PNullFloat PNullEx PNullEx2.
Import ListNotations.
Open Scope R_scope.

(** *** C10: fits of the multi-task elastic net stop at zero as soon as the squared gradient
    norms are below the threshold, even where zero is not optimal *)
Theorem C10_stops_at_zero srt (VS : valid_sort xops srt) n p T X Y a r s fit tol : (1 <= n)%nat -> multi_fit srt n p T X Y (MtEnetPen a r) s fit ->
  s_tolerance s = Fin tol -> 0 <= tol -> accepted fit ->
  (forall j, (j < p)%nat -> (xty_norm n T X Y j / INR n) ^ 2 <= a * r + tol) -> forall m, fit m = Ret (Ok (xm p T (fun _ _ => 0))).
Proof. exact (fun Hn => enet_mt_stops srt VS n p Hn T X Y a r s fit tol). Qed.
Print Assumptions C10_stops_at_zero.
Theorem C10_zero_not_optimal n p T X Y k am : (1 <= n)%nat -> penT_range k -> reported_alpha_max_mt n p T X Y am -> slope_mt k < am ->
  exists W, objective_mt (quad_loss_mt n T Y) p T X (penT k) W < objective_mt (quad_loss_mt n T Y) p T X (penT k) (fun _ _ => 0).
Proof. exact (fun Hn => zero_not_optimal_mt n p Hn T X Y k am). Qed.
Print Assumptions C10_zero_not_optimal.
(** both at once: correlation 1/2, weight 3/10 *)
Example C10_both : multi_fit (dsort xops) 1 1 1 oneX1 oneY1 (MtEnetPen (3/10) 1) (settings (opr (3/10) 1)) fit_en /\ accepted fit_en /\
  (forall j, (j < 1)%nat -> (xty_norm 1 1 oneX1 oneY1 j / INR 1) ^ 2 <= 3/10 * 1 + 1/100) /\
  reported_alpha_max_mt 1 1 1 oneX1 oneY1 (1/2) /\ slope_mt (MtEnetPen (3/10) 1) < 1/2 /\ valid_sort xops (dsort xops).
Proof. exact (conj (proj1 fit_en_ex) (conj (proj2 fit_en_ex) (conj en_small (conj am_mt_ex (conj en_slope_ex xr_sort))))). Qed.

(** *** C19, floating point, single task: no hypothesis on the entries *)
Theorem C19_floats prec emax (Hp : Prec_gt_0 prec) (Hm : Prec_lt_emax prec emax) lm : reduces prec emax Hp Hm lm ->
  let o := ieee_ops prec emax Hp Hm lm in
  forall srt n p X t y am pr, shaped n p X -> target1_wf n t -> single_target (f0 o) t = Ret y -> compute_alpha_max o X y = Ret am ->
  fle o (f0 o) (p_tolerance pr) = true ->
  (fle o am (p_alpha pr) = true -> returns (lasso_check_ref o) (lasso_fit_dense o srt) pr (Dataset X t) (repeat (f0 o) p) /\ returns (mcp_check_ref o) (mcp_fit_dense o srt) pr (Dataset X t) (repeat (f0 o) p)) /\
  (fle o am (fmul o (p_alpha pr) (p_shape pr)) = true -> returns (elastic_net_check_ref o) (elastic_net_fit_dense o srt) pr (Dataset X t) (repeat (f0 o) p)).
Proof. exact (c19_floats prec emax Hp Hm lm). Qed.
Print Assumptions C19_floats.
Theorem C19_floats_sparse prec emax (Hp : Prec_gt_0 prec) (Hm : Prec_lt_emax prec emax) lm : reduces prec emax Hp Hm lm ->
  let o := ieee_ops prec emax Hp Hm lm in
  forall srt n p X t y am pr, csc_wf n p X -> target1_wf n t -> single_target (f0 o) t = Ret y -> compute_alpha_max_sparse o X y = Ret am ->
  fle o (f0 o) (p_tolerance pr) = true ->
  (fle o am (p_alpha pr) = true -> returns (lasso_check_ref o) (lasso_fit_sparse o srt) pr (Dataset X t) (repeat (f0 o) p) /\ returns (mcp_check_ref o) (mcp_fit_sparse o srt) pr (Dataset X t) (repeat (f0 o) p)) /\
  (fle o am (fmul o (p_alpha pr) (p_shape pr)) = true -> returns (elastic_net_check_ref o) (elastic_net_fit_sparse o srt) pr (Dataset X t) (repeat (f0 o) p)).
Proof. exact (c19_floats_sparse prec emax Hp Hm lm). Qed.
Print Assumptions C19_floats_sparse.
Example C19_floats_nonvacuous : reduces 53 1024 Hprec64 Hmax64 libm64 /\ shaped 2 2 nullX /\ target1_wf 2 (T1 nully) /\ single_target (f0 ops64) (T1 nully) = Ret nully /\
  (exists am, compute_alpha_max ops64 nullX nully = Ret am /\ fle ops64 am (p_alpha nullpr) = true /\ fle ops64 am (fmul ops64 (p_alpha nullpr) (p_shape nullpr)) = true /\ flt ops64 (f0 ops64) am = true) /\
  fle ops64 (f0 ops64) (p_tolerance nullpr) = true /\ lasso_check_ref ops64 nullpr = Ok nullpr /\ elastic_net_check_ref ops64 nullpr = Ok nullpr.
Proof. exact (conj reduces64 null_ex). Qed.
(** several tasks: rounding breaks it (double precision, tolerance 0, three samples) *)
Theorem C19_floats_multitask_refuted : exists X Y am pr W, compute_alpha_max_mtl ops64 X Y = Ret am /\ p_alpha pr = am /\ fle ops64 (f0 ops64) (p_tolerance pr) = true /\
  fit_unchecked (mt_lasso_check_ref ops64) (mt_lasso_fit_dense ops64 srt64) pr (Dataset X (T2 Y)) = Ret (Ok W) /\ existsb (any_nonzero ops64) (mrows W) = true.
Proof. exact th_witness. Qed.
Print Assumptions C19_floats_multitask_refuted.
(** exact arithmetic *)
Theorem C19_null_model srt (VS : valid_sort xops srt) n p X y k am s fit tol : (1 <= n)%nat -> reported_alpha_max n p X y am ->
  single_fit srt n p X y Squared k s fit -> s_tolerance s = Fin tol -> 0 <= tol -> accepted fit -> am <= slope k + tol ->
  forall m, fit m = Ret (Ok (xv p (fun _ => 0))).
Proof. exact (fun Hn Ham HF Et Ht => c19_real srt VS n p Hn X y k am Ham s fit tol HF Et Ht). Qed.
Print Assumptions C19_null_model.
Theorem C19_null_model_multitask srt (VS : valid_sort xops srt) n p T X Y k am s fit tol : (1 <= n)%nat -> reported_alpha_max_mt n p T X Y am ->
  multi_fit srt n p T X Y k s fit -> s_tolerance s = Fin tol -> 0 <= tol -> match k with MtEnetPen _ _ => False | _ => True end -> accepted fit -> am <= slope_mt k + tol ->
  forall m, fit m = Ret (Ok (xm p T (fun _ _ => 0))).
Proof. exact (fun Hn Ham HF => c19_real_mt srt VS n p Hn T X Y k am s fit tol Ham HF). Qed.
Print Assumptions C19_null_model_multitask.
(** Lasso and elastic net; no hypothesis on the tolerance *)
Theorem C19_null_model_multitask_enet srt (VS : valid_sort xops srt) n p T X Y k am s fit : (1 <= n)%nat -> reported_alpha_max_mt n p T X Y am ->
  multi_fit srt n p T X Y k s fit -> convexT k -> am <= slope_mt k -> forall m v, fit m = Ret (Ok v) -> v = xm p T (fun _ _ => 0).
Proof. exact (fun Hn Ham HF => c19_enet_mt srt VS n p Hn T X Y k am s fit Ham HF). Qed.
Print Assumptions C19_null_model_multitask_enet.
Example C19_nonvacuous : reported_alpha_max 3 3 (entry exE) oy (2/3) /\
  (single_fit (dsort xops) 3 3 (entry exE) oy Squared (McpPen 1 3) (settings (opr 1 3)) fit_mcp1 /\ accepted fit_mcp1 /\ 2/3 <= slope (McpPen 1 3) + 1/100).
Proof. exact (conj am_ex fit_mcp1_ex). Qed.

(** *** C20 *)
Theorem C20_zero_not_optimal n p X y k am : (1 <= n)%nat -> reported_alpha_max n p X y am -> pen1_range k -> steps_ok Rlt k Squared n p X -> slope k < am ->
  exists w, objective (loss1 Squared n y) p X (pen1 k) w < objective (loss1 Squared n y) p X (pen1 k) (fun _ => 0).
Proof. exact (fun Hn Ham => zero_not_optimal (dsort xops) n p Hn X y k am Ham). Qed.
Print Assumptions C20_zero_not_optimal.
Theorem C20_sharp srt (VS : valid_sort xops srt) n p X y k am s fit tol : (1 <= n)%nat -> reported_alpha_max n p X y am ->
  single_fit srt n p X y Squared k s fit -> s_tolerance s = Fin tol -> 0 <= tol -> steps_ok Rlt k Squared n p X ->
  (1 <= s_ws_start_size s)%nat -> (1 <= s_max_epochs s)%nat -> slope k + tol < am ->
  forall m v, (1 <= m)%nat -> fit m = Ret (Ok v) ->
  exists w, v = xv p w /\ objective (loss1 Squared n y) p X (pen1 k) w < objective (loss1 Squared n y) p X (pen1 k) (fun _ => 0) /\ exists j, (j < p)%nat /\ w j <> 0.
Proof. exact (fun Hn Ham HF Et Ht => c20_real srt VS n p Hn X y k am Ham s fit tol HF Et Ht). Qed.
Print Assumptions C20_sharp.
Theorem C20_sharp_multitask_lasso srt (VS : valid_sort xops srt) n p T X Y a am s fit tol : (1 <= n)%nat -> reported_alpha_max_mt n p T X Y am ->
  multi_fit srt n p T X Y (MtLassoPen a) s fit -> s_tolerance s = Fin tol -> 0 <= tol -> (1 <= s_ws_start_size s)%nat -> (1 <= s_max_epochs s)%nat -> a + tol < am ->
  forall m v, (1 <= m)%nat -> fit m = Ret (Ok v) ->
  exists W, v = xm p T W /\ objective_mt (quad_loss_mt n T Y) p T X (penT (MtLassoPen a)) W < objective_mt (quad_loss_mt n T Y) p T X (penT (MtLassoPen a)) (fun _ _ => 0) /\
    exists j t, (j < p)%nat /\ (t < T)%nat /\ W j t <> 0.
Proof. exact (fun Hn Ham HF => c20_real_mt srt VS n p Hn T X Y a am s fit tol Ham HF). Qed.
Print Assumptions C20_sharp_multitask_lasso.
Example C20_nonvacuous : reported_alpha_max 3 3 (entry exE) oy (2/3) /\ slope (McpPen (1/10) 3) + 1/100 < 2/3 /\
  single_fit (dsort xops) 3 3 (entry exE) oy Squared (McpPen (1/10) 3) (settings (opr (1/10) 3)) fit_mcp /\ steps_ok Rlt (McpPen (1/10) 3) Squared 3 3 (entry exE) /\
  (exists m w, (forall m', (m <= m')%nat -> fit_mcp m' = Ret (Ok (xv 3 w))) /\ stationary (1/100) (loss1 Squared 3 oy) 3 (entry exE) (pen1 (McpPen (1/10) 3)) w /\ exists j, (j < 3)%nat /\ w j <> 0).
Proof. exact (conj am_ex (conj mcp_slope_ex (conj ex_fit_mcp (conj (proj1 (proj2 (proj2 ex_ok))) ex_mcp_result)))). Qed.

(** *** C31 *)
Theorem C31_not_anderson_weights_refuted : exists n p X y f H w w' c0 c1 b0 b1,
  single_accel n p X y Squared (LassoPen 0) f /\
  f (xm 3 p H) (xv p w) (xv n (lin p X w)) (seq 0 p) 2%nat 2%nat false = Ret (xv p w', xv n (lin p X w'), xm 3 p H) /\
  (forall j, H 2%nat j = w j) /\
  (forall e0 e1, (forall j, (j < p)%nat -> w' j = e0 * H 0%nat j + e1 * H 1%nat j) <-> e0 = c0 /\ e1 = c1) /\
  c0 + c1 = 1 /\ b0 + b1 = 1 /\
  Sum p (fun j => (b0 * (H 1%nat j - H 0%nat j) + b1 * (H 2%nat j - H 1%nat j)) ^ 2) <
  Sum p (fun j => (c0 * (H 1%nat j - H 0%nat j) + c1 * (H 2%nat j - H 1%nat j)) ^ 2).
Proof. exact anderson_refuted. Qed.
Print Assumptions C31_not_anderson_weights_refuted.

(** *** C40 *)
Theorem C40_nan_target prec emax (Hp : Prec_gt_0 prec) (Hm : Prec_lt_emax prec emax) lm : reduces prec emax Hp Hm lm ->
  let o := ieee_ops prec emax Hp Hm lm in
  forall srt n p X t y pr, shaped n p X -> target1_wf n t -> single_target (f0 o) t = Ret y -> (exists x, In x y /\ is_nan x = true) ->
  fle o (f0 o) (p_tolerance pr) = true ->
  returns (lasso_check_ref o) (lasso_fit_dense o srt) pr (Dataset X t) (repeat (f0 o) p) /\
  returns (mcp_check_ref o) (mcp_fit_dense o srt) pr (Dataset X t) (repeat (f0 o) p) /\
  returns (elastic_net_check_ref o) (elastic_net_fit_dense o srt) pr (Dataset X t) (repeat (f0 o) p).
Proof. exact (c40_floats prec emax Hp Hm lm). Qed.
Print Assumptions C40_nan_target.
(** one NaN in one task zeroes all tasks *)
Theorem C40_nan_target_multitask prec emax (Hp : Prec_gt_0 prec) (Hm : Prec_lt_emax prec emax) lm : reduces prec emax Hp Hm lm ->
  let o := ieee_ops prec emax Hp Hm lm in
  forall srt n p T X t i k r x pr, shaped n p X -> target_wf n T t -> nth_error (mrows (as_multi_tasks t)) i = Some r -> nth_error r k = Some x -> is_nan x = true ->
  fle o (f0 o) (p_tolerance pr) = true ->
  returns (mt_lasso_check_ref o) (mt_lasso_fit_dense o srt) pr (Dataset X t) (mzeros o p T) /\
  returns (block_mcp_check_ref o) (block_mcp_fit_dense o srt) pr (Dataset X t) (mzeros o p T) /\
  returns (mt_elastic_net_check_ref o) (mt_elastic_net_fit_dense o srt) pr (Dataset X t) (mzeros o p T).
Proof. exact (c40_floats_mt prec emax Hp Hm lm). Qed.
Print Assumptions C40_nan_target_multitask.
Example C40_nonvacuous : reduces 53 1024 Hprec64 Hmax64 libm64 /\ lasso_check_ref ops64 nullpr = Ok nullpr /\
  (shaped 2 2 nullX /\ target1_wf 2 (T1 nany) /\ single_target (f0 ops64) (T1 nany) = Ret nany /\ (exists x, In x nany /\ is_nan x = true) /\
   target_wf 2 3 (T2 nanY) /\ (exists r x, nth_error (mrows (as_multi_tasks (T2 nanY))) 1 = Some r /\ nth_error r 1 = Some x /\ is_nan x = true)).
Proof. exact (conj reduces64 (conj (proj1 (proj2 (proj2 (proj2 (proj2 (proj2 null_ex)))))) nan_ex)). Qed.

(** *** C46: finite data, hyperparameters accepted by validation, coefficients all NaN *)
Theorem C46_nan_coefficients_refuted : exists X Y pr,
  (forall r x, In r (mrows X ++ mrows Y) -> In x r -> is_finite x = true) /\ pr = set_alpha (f0 ops64) (mt_lasso_params_new ops64) /\
  exists W, fit_unchecked (mt_lasso_check_ref ops64) (mt_lasso_fit_dense ops64 srt64) pr (Dataset X (T2 Y)) = Ret (Ok W) /\
    length (mrows W) = 5%nat /\ forall r, In r (mrows W) -> length r = 1%nat /\ forall x, In x r -> is_nan x = true.
Proof. exact zn_witness. Qed.
Print Assumptions C46_nan_coefficients_refuted.

(** *** C48 *)
Theorem C48_strict_progress srt (VS : valid_sort xops srt) n p X y l k s fit tol : (1 <= n)%nat -> single_fit srt n p X y l k s fit ->
  targets_ok l n y -> steps_ok Rlt k l n p X -> s_tolerance s = Fin tol -> 0 <= tol -> (1 <= s_ws_start_size s)%nat -> (1 <= s_max_epochs s)%nat ->
  forall m m' w v', (m < m')%nat -> fit m = Ret (Ok (xv p w)) -> ~ stationary tol (loss1 l n y) p X (pen1 k) w -> fit m' = Ret (Ok v') ->
  exists w', v' = xv p w' /\ objective (loss1 l n y) p X (pen1 k) w' < objective (loss1 l n y) p X (pen1 k) w.
Proof. exact (fun Hn HF HY HS Et Ht Hw He m m' w v' => strict_single srt VS n p Hn X y l k s fit HF HY HS tol m m' w v' Et Ht Hw He). Qed.
Print Assumptions C48_strict_progress.
Theorem C48_strict_progress_multitask_lasso srt (VS : valid_sort xops srt) n p T X Y a s fit tol : (1 <= n)%nat -> multi_fit srt n p T X Y (MtLassoPen a) s fit ->
  s_tolerance s = Fin tol -> 0 <= tol -> (1 <= s_ws_start_size s)%nat -> (1 <= s_max_epochs s)%nat ->
  forall m m' W v', (m < m')%nat -> fit m = Ret (Ok (xm p T W)) -> ~ stationary_mt tol (quad_loss_mt n T Y) p T X (penT (MtLassoPen a)) W -> fit m' = Ret (Ok v') ->
  exists W', v' = xm p T W' /\ objective_mt (quad_loss_mt n T Y) p T X (penT (MtLassoPen a)) W' < objective_mt (quad_loss_mt n T Y) p T X (penT (MtLassoPen a)) W.
Proof. exact (fun Hn HF Et Ht Hw He m m' W v' => strict_multi srt VS n p Hn T X Y a s fit HF tol m m' W v' Et Ht Hw He). Qed.
Print Assumptions C48_strict_progress_multitask_lasso.
(** the fit of C25 with no iteration is the null model, which violates the criterion *)
Example C48_nonvacuous : fit_mcp 0 = Ret (Ok (xv 3 (fun _ => 0))) /\ ~ stationary (1/100) (loss1 Squared 3 oy) 3 (entry exE) (pen1 (McpPen (1/10) 3)) (fun _ => 0) /\
  (exists m v, (0 < m)%nat /\ fit_mcp m = Ret (Ok v)).
Proof. exact mcp_progress_ex. Qed.
