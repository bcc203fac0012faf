(** Property theorems C12, C21, C22 and C23: solver runs in any float arithmetic. *)
From Coq Require Import List ZArith Bool Arith Lia.
From Verif Require Import Ops Arr MUtils MDatasets MDatafits MDatafitsMT MPenalties MBlockPenalties MCd MBcd MHyper MEstimators XR IEEE SpecSolve PLaws PRuns PRunsEx.
Import ListNotations.
Local Open Scope nat_scope.

(** The arithmetics the theorems of this file apply to include the reals with infinities and NaN,
    and IEEE doubles with round-to-nearest; both have admissible sorts. *)
Example arithmetics : float_laws xops /\ float_laws ops64 /\ valid_sort xops (dsort xops) /\ valid_sort ops64 srt64.
Proof. exact (conj xr_laws (conj ops64_laws (conj xr_sort srt64_ok))). Qed.
Print Assumptions arithmetics.

(** *** C12 *)
Theorem C12_l05_returns_zeros {F} (o : FOps F) (srt : list F -> list nat) n p X c t (s : solver F) :
  shaped n p X -> csc_wf n p c -> target1_wf n t -> fle o (f0 o) (s_tolerance s) = true ->
  (forall d q, solve o srt (dense_dm o) (quad_dense o) (l05_penalty o) s (Dataset X t) d q = Ret (repeat (f0 o) p)) /\
  (forall d q, solve o srt (dense_dm o) (log_dense o) (l05_penalty o) s (Dataset X t) d q = Ret (repeat (f0 o) p)) /\
  (forall d q, solve o srt (sparse_dm o) (quad_sparse o) (l05_penalty o) s (Dataset c t) d q = Ret (repeat (f0 o) p)) /\
  (forall d q, solve o srt (sparse_dm o) (log_sparse o) (l05_penalty o) s (Dataset c t) d q = Ret (repeat (f0 o) p)).
Proof. exact (c12 o srt n p X c t s). Qed.
Print Assumptions C12_l05_returns_zeros.
Example C12_nonvacuous : shaped 3 2 rX /\ csc_wf 3 2 rC /\ target1_wf 3 ry /\ fle ops64 (f0 ops64) (flit ops64 1 1000000) = true.
Proof. exact (conj rX_shaped (conj rC_wf (conj ry_wf eq_refl))). Qed.

(** *** C21 *)
Theorem C21_working_set {F} (o : FOps F) (LF : float_laws o) (srt : list F -> list nat) (VS : valid_sort o srt) kkt w ws0 :
  length kkt = length w -> ws0 <= length w ->
  (forall j s, nth_error kkt j = Some s -> ~ nonzero o w j -> fisnan o s = false /\ flt o s (finf o) = true) ->
  exists ws, construct_ws_from_kkt o srt kkt w ws0 = Ret (ws, length ws) /\
    length ws = Nat.max ws0 (Nat.min (2 * length (filter (fun x => negb (feq o x (f0 o))) w)) (length w)) /\
    NoDup ws /\ (forall j, In j ws -> j < length w) /\
    (forall j, nonzero o w j -> In j ws) /\
    (forall j k s s', In j ws -> ~ nonzero o w j -> k < length w -> ~ In k ws ->
       nth_error kkt j = Some s -> nth_error kkt k = Some s' -> flt o s s' = false).
Proof. exact (c21 o LF srt VS kkt w ws0). Qed.
Print Assumptions C21_working_set.
Theorem C21_working_set_multitask {F} (o : FOps F) (LF : float_laws o) (srt : list F -> list nat) (VS : valid_sort o srt) p kkt W ws0 :
  shaped p (mnc W) W -> length kkt = p -> ws0 <= p ->
  (forall j s, nth_error kkt j = Some s -> ~ nonzero_row o W j -> fisnan o s = false /\ flt o s (finf o) = true) ->
  exists ws, construct_ws_from_kkt_mt o srt kkt W ws0 = Ret (ws, length ws) /\
    length ws = Nat.max ws0 (Nat.min (2 * length (filter (existsb (fun x => negb (feq o x (f0 o)))) (mrows W))) p) /\
    NoDup ws /\ (forall j, In j ws -> j < p) /\
    (forall j, nonzero_row o W j -> In j ws) /\
    (forall j k s s', In j ws -> ~ nonzero_row o W j -> k < p -> ~ In k ws ->
       nth_error kkt j = Some s -> nth_error kkt k = Some s' -> flt o s s' = false).
Proof. exact (c21_mt o LF srt VS p kkt W ws0). Qed.
Print Assumptions C21_working_set_multitask.
(** the hypothesis that scores of zero coefficients are finite cannot be dropped *)
Theorem C21_infinite_scores_refuted : exists kkt w ws0 ws sz j,
  length kkt = length w /\ ws0 <= length w /\ existsb (fisnan ops64) kkt = false /\
  construct_ws_from_kkt ops64 srt64 kkt w ws0 = Ret (ws, sz) /\ nonzero ops64 w j /\ ~ In j ws.
Proof. exact ws_inf_refuted. Qed.
Print Assumptions C21_infinite_scores_refuted.
Example C21_nonvacuous :
  construct_ws_from_kkt ops64 srt64 (map f64_of [1; 3; 0; 2]%Z) (map f64_of [0; 0; 5; 0]%Z) 1 = Ret ([2; 1], 2).
Proof. exact ex_ws. Qed.

(** *** C22 *)
Theorem C22_no_panic_dense {F} (o : FOps F) (LF : float_laws o) (srt : list F -> list nat) (VS : valid_sort o srt) n p X t pr :
  shaped n p X -> target1_wf n t ->
  accel_safe (p_use_acceleration pr) (p_K pr) (Nat.min (p_ws_start_size pr) p) (p_max_epochs pr) ->
  let good := fun w : list F => length w = p in
  finishes good (fit_unchecked (lasso_check_ref o) (lasso_fit_dense o srt) pr (Dataset X t)) /\
  finishes good (fit_unchecked (elastic_net_check_ref o) (elastic_net_fit_dense o srt) pr (Dataset X t)) /\
  finishes good (fit_unchecked (mcp_check_ref o) (mcp_fit_dense o srt) pr (Dataset X t)).
Proof. exact (c22_dense o LF srt VS n p X t pr). Qed.
Print Assumptions C22_no_panic_dense.
Theorem C22_no_panic_sparse {F} (o : FOps F) (LF : float_laws o) (srt : list F -> list nat) (VS : valid_sort o srt) n p X t pr :
  csc_wf n p X -> target1_wf n t ->
  accel_safe (p_use_acceleration pr) (p_K pr) (Nat.min (p_ws_start_size pr) p) (p_max_epochs pr) ->
  let good := fun w : list F => length w = p in
  finishes good (fit_unchecked (lasso_check_ref o) (lasso_fit_sparse o srt) pr (Dataset X t)) /\
  finishes good (fit_unchecked (elastic_net_check_ref o) (elastic_net_fit_sparse o srt) pr (Dataset X t)) /\
  finishes good (fit_unchecked (mcp_check_ref o) (mcp_fit_sparse o srt) pr (Dataset X t)).
Proof. exact (c22_sparse o LF srt VS n p X t pr). Qed.
Print Assumptions C22_no_panic_sparse.
Theorem C22_no_panic_multitask_dense {F} (o : FOps F) (LF : float_laws o) (srt : list F -> list nat) (VS : valid_sort o srt) n p T X t pr :
  shaped n p X -> target_wf n T t ->
  accel_safe (p_use_acceleration pr) (p_K pr) (Nat.min (p_ws_start_size pr) p * T) (p_max_epochs pr) ->
  let good := fun W : mat F => shaped p T W in
  finishes good (fit_unchecked (mt_lasso_check_ref o) (mt_lasso_fit_dense o srt) pr (Dataset X t)) /\
  finishes good (fit_unchecked (mt_elastic_net_check_ref o) (mt_elastic_net_fit_dense o srt) pr (Dataset X t)) /\
  finishes good (fit_unchecked (block_mcp_check_ref o) (block_mcp_fit_dense o srt) pr (Dataset X t)).
Proof. exact (c22_mt_dense o LF srt VS n p T X t pr). Qed.
Print Assumptions C22_no_panic_multitask_dense.
Theorem C22_no_panic_multitask_sparse {F} (o : FOps F) (LF : float_laws o) (srt : list F -> list nat) (VS : valid_sort o srt) n p T X t pr :
  csc_wf n p X -> target_wf n T t ->
  accel_safe (p_use_acceleration pr) (p_K pr) (Nat.min (p_ws_start_size pr) p * T) (p_max_epochs pr) ->
  let good := fun W : mat F => shaped p T W in
  finishes good (fit_unchecked (mt_lasso_check_ref o) (mt_lasso_fit_sparse o srt) pr (Dataset X t)) /\
  finishes good (fit_unchecked (mt_elastic_net_check_ref o) (mt_elastic_net_fit_sparse o srt) pr (Dataset X t)) /\
  finishes good (fit_unchecked (block_mcp_check_ref o) (block_mcp_fit_sparse o srt) pr (Dataset X t)).
Proof. exact (c22_mt_sparse o LF srt VS n p T X t pr). Qed.
Print Assumptions C22_no_panic_multitask_sparse.
Theorem C22_no_panic_solver {F} (o : FOps F) (LF : float_laws o) (srt : list F -> list nat) (VS : valid_sort o srt) n p X c t (s : solver F) :
  shaped n p X -> csc_wf n p c -> target1_wf n t ->
  accel_safe (s_use_acceleration s) (s_K s) (Nat.min (s_ws_start_size s) p) (s_max_epochs s) ->
  (forall d q, returns_len p (solve o srt (dense_dm o) (log_dense o) (l1_penalty o) s (Dataset X t) d q)) /\
  (forall d q, returns_len p (solve o srt (dense_dm o) (log_dense o) (l1l2_penalty o) s (Dataset X t) d q)) /\
  (forall d q, returns_len p (solve o srt (dense_dm o) (log_dense o) (mcp_penalty o) s (Dataset X t) d q)) /\
  (forall d q, returns_len p (solve o srt (dense_dm o) (log_dense o) (l05_penalty o) s (Dataset X t) d q)) /\
  (forall d q, returns_len p (solve o srt (sparse_dm o) (log_sparse o) (l1_penalty o) s (Dataset c t) d q)) /\
  (forall d q, returns_len p (solve o srt (sparse_dm o) (log_sparse o) (l1l2_penalty o) s (Dataset c t) d q)) /\
  (forall d q, returns_len p (solve o srt (sparse_dm o) (log_sparse o) (mcp_penalty o) s (Dataset c t) d q)) /\
  (forall d q, returns_len p (solve o srt (sparse_dm o) (log_sparse o) (l05_penalty o) s (Dataset c t) d q)) /\
  (forall d q, returns_len p (solve o srt (dense_dm o) (quad_dense o) (l05_penalty o) s (Dataset X t) d q)) /\
  (forall d q, returns_len p (solve o srt (sparse_dm o) (quad_sparse o) (l05_penalty o) s (Dataset c t) d q)).
Proof. exact (c22_logistic o LF srt VS n p X c t s). Qed.
Print Assumptions C22_no_panic_solver.
Example C22_nonvacuous : shaped 3 2 rX /\ target1_wf 3 ry /\ accel_safe (p_use_acceleration rpr) (p_K rpr) (Nat.min (p_ws_start_size rpr) 2) (p_max_epochs rpr) /\
  exists w, fit_unchecked (lasso_check_ref ops64) (lasso_fit_dense ops64 srt64) rpr (Dataset rX ry) = Ret (Ok w) /\ nonzero ops64 w 0.
Proof. exact (conj rX_shaped (conj ry_wf (conj (or_intror (or_introl (conj (le_S _ _ (le_n 1)) (le_n 2)))) run_returns))). Qed.

(** *** C23 *)
Theorem C23_small_problems {F} (o : FOps F) (LF : float_laws o) (srt : list F -> list nat) (VS : valid_sort o srt) n p X c t pr :
  shaped n p X -> csc_wf n p c -> target1_wf n t -> p_use_acceleration pr = true ->
  Nat.min (p_ws_start_size pr) p < p_K pr -> p_K pr <= 10 -> p_K pr < p_max_epochs pr ->
  let zero := repeat (f0 o) p in
  zero_or_oob zero (fit_unchecked (lasso_check_ref o) (lasso_fit_dense o srt) pr (Dataset X t)) /\
  zero_or_oob zero (fit_unchecked (lasso_check_ref o) (lasso_fit_sparse o srt) pr (Dataset c t)) /\
  zero_or_oob zero (fit_unchecked (elastic_net_check_ref o) (elastic_net_fit_dense o srt) pr (Dataset X t)) /\
  zero_or_oob zero (fit_unchecked (elastic_net_check_ref o) (elastic_net_fit_sparse o srt) pr (Dataset c t)) /\
  zero_or_oob zero (fit_unchecked (mcp_check_ref o) (mcp_fit_dense o srt) pr (Dataset X t)) /\
  zero_or_oob zero (fit_unchecked (mcp_check_ref o) (mcp_fit_sparse o srt) pr (Dataset c t)).
Proof. exact (c23 o LF srt VS n p X c t pr). Qed.
Print Assumptions C23_small_problems.
Theorem C23_small_problems_multitask {F} (o : FOps F) (LF : float_laws o) (srt : list F -> list nat) (VS : valid_sort o srt) n p T X c t pr :
  shaped n p X -> csc_wf n p c -> target_wf n T t -> p_use_acceleration pr = true ->
  Nat.min (p_ws_start_size pr) p * T < p_K pr -> p_K pr <= 10 -> p_K pr < p_max_epochs pr ->
  let zero := mfill (f0 o) p T in
  zero_or_oob zero (fit_unchecked (mt_lasso_check_ref o) (mt_lasso_fit_dense o srt) pr (Dataset X t)) /\
  zero_or_oob zero (fit_unchecked (mt_lasso_check_ref o) (mt_lasso_fit_sparse o srt) pr (Dataset c t)) /\
  zero_or_oob zero (fit_unchecked (mt_elastic_net_check_ref o) (mt_elastic_net_fit_dense o srt) pr (Dataset X t)) /\
  zero_or_oob zero (fit_unchecked (mt_elastic_net_check_ref o) (mt_elastic_net_fit_sparse o srt) pr (Dataset c t)) /\
  zero_or_oob zero (fit_unchecked (block_mcp_check_ref o) (block_mcp_fit_dense o srt) pr (Dataset X t)) /\
  zero_or_oob zero (fit_unchecked (block_mcp_check_ref o) (block_mcp_fit_sparse o srt) pr (Dataset c t)).
Proof. exact (c23_mt o LF srt VS n p T X c t pr). Qed.
Print Assumptions C23_small_problems_multitask.
(** the default Lasso on a 3 x 2 dataset in double precision *)
Example C23_nonvacuous :
  fit_unchecked (lasso_check_ref ops64) (lasso_fit_dense ops64 srt64) (lasso_params_new ops64) (Dataset rX ry) = Panic POob.
Proof. exact run_panics. Qed.
