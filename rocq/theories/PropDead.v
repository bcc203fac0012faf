(** Property theorems C74: columns that carry no information. *)
From Coq Require Import List ZArith Bool Arith Lia.
From Verif Require Import Ops Arr MUtils MDatasets MDatafits MPenalties MCd MHyper MEstimators XR IEEE
  SpecSolve SpecNan SpecDead PRunsEx PSortNanFit PPoisonEst PNanCol PDeadEst.
Import ListNotations.
Local Open Scope nat_scope.

(** *** C74 *)
Theorem C74_zero_spreads : zero_spreads xops /\
  forall prec emax Hp Hm m, reduces prec emax Hp Hm m -> zero_spreads (ieee_ops prec emax Hp Hm m).
Proof. exact (conj xr_zero_spreads ieee_zero_spreads). Qed.
Print Assumptions C74_zero_spreads.
Theorem C74_lasso_ignores_dead_columns {F} (o : FOps F) (SP : nan_spreads o) (ZS : zero_spreads o) (srt : list F -> list nat)
    n p (D : list nat) t (pr : params F) : target1_wf n t -> (forall j, In j D -> j < p) -> p_use_acceleration pr = false \/ p_max_epochs pr <= p_K pr ->
  (forall X X', shaped n p X -> shaped n p X' -> (forall j, In j D -> dead_column o X j /\ dead_column o X' j) -> differ_only D X X' ->
    fit_unchecked (lasso_check_ref o) (lasso_fit_dense o srt) pr (Dataset X t) = fit_unchecked (lasso_check_ref o) (lasso_fit_dense o srt) pr (Dataset X' t)) /\
  (forall X X', csc_wf n p X -> csc_wf n p X' -> (forall j, In j D -> dead_column_csc o X j /\ dead_column_csc o X' j) -> differ_only_csc D X X' ->
    fit_unchecked (lasso_check_ref o) (lasso_fit_sparse o srt) pr (Dataset X t) = fit_unchecked (lasso_check_ref o) (lasso_fit_sparse o srt) pr (Dataset X' t)).
Proof. exact (fun Ht Hlt => dead_lasso o SP ZS srt n p D t Ht Hlt pr). Qed.
Print Assumptions C74_lasso_ignores_dead_columns.
Theorem C74_logistic_ignores_dead_columns {F} (o : FOps F) (SP : nan_spreads o) (ZS : zero_spreads o) (srt : list F -> list nat)
    n p (D : list nat) t (s : solver F) d q : target1_wf n t -> (forall j, In j D -> j < p) ->
  fisneg o (l1_alpha q) = false -> s_use_acceleration s = false \/ s_max_epochs s <= s_K s ->
  (forall X X', shaped n p X -> shaped n p X' -> (forall j, In j D -> dead_column o X j /\ dead_column o X' j) -> differ_only D X X' ->
    solve o srt (dense_dm o) (log_dense o) (l1_penalty o) s (Dataset X t) d q = solve o srt (dense_dm o) (log_dense o) (l1_penalty o) s (Dataset X' t) d q) /\
  (forall X X', csc_wf n p X -> csc_wf n p X' -> (forall j, In j D -> dead_column_csc o X j /\ dead_column_csc o X' j) -> differ_only_csc D X X' ->
    solve o srt (sparse_dm o) (log_sparse o) (l1_penalty o) s (Dataset X t) d q = solve o srt (sparse_dm o) (log_sparse o) (l1_penalty o) s (Dataset X' t) d q).
Proof. exact (fun Ht Hlt => dead_log o SP ZS srt n p D t Ht Hlt s d q). Qed.
Print Assumptions C74_logistic_ignores_dead_columns.
(** with extrapolation the claim fails *)
Theorem C74_with_acceleration_refuted : exists (X X' : mat f64) (t : targets f64) (pr : params f64) w w' x x',
  shaped 4 4 X /\ shaped 4 4 X' /\ target1_wf 4 t /\ dead_column ops64 X 3 /\ dead_column ops64 X' 3 /\ differ_only [3] X X' /\
  fit_unchecked (lasso_check_ref ops64) (lasso_fit_dense ops64 srt64) pr (Dataset X t) = Ret (Ok w) /\
  fit_unchecked (lasso_check_ref ops64) (lasso_fit_dense ops64 srt64) pr (Dataset X' t) = Ret (Ok w') /\
  nth_error w 0 = Some x /\ nth_error w' 0 = Some x' /\ feq ops64 x x' = false /\ fisnan ops64 x = false /\ fisnan ops64 x' = false.
Proof. exact dead_accel. Qed.
Print Assumptions C74_with_acceleration_refuted.
(** doubles: column 1 holds a NaN in one design and zeros in the other; the fit is not zero *)
Example C74_nonvacuous : (nan_spreads ops64 /\ shaped 3 2 nX /\ nan_column ops64 nX 1) /\ target1_wf 3 ry /\ p_use_acceleration npr_off = false /\
  (zero_spreads ops64 /\ shaped 3 2 zX /\ (forall j, In j [1] -> dead_column ops64 nX j /\ dead_column ops64 zX j) /\ differ_only [1] nX zX /\
   csc_wf 3 2 nC /\ csc_wf 3 2 zC /\ (forall j, In j [1] -> dead_column_csc ops64 nC j /\ dead_column_csc ops64 zC j) /\ differ_only_csc [1] nC zC) /\
  match fit_unchecked (lasso_check_ref ops64) (lasso_fit_dense ops64 srt64) npr_off (Dataset nX ry) with
  | Ret (Ok [a; b]) => negb (feq ops64 a (f0 ops64)) && feq ops64 b (f0 ops64) | _ => false end = true.
Proof. exact (conj ex_spread (conj eq_refl (conj eq_refl (conj ex_dead ex_dead_fit)))). Qed.
