(** Property theorem C68: how many iterations are enough.  Exact arithmetic; [fit m] is a call
    with iteration budget [m]. *)
From Coq Require Import List ZArith Bool Arith Reals.
From Verif Require Import Ops Arr MUtils MDatasets MHyper MEstimators XR RSum SpecPen SpecLin SpecData PDataEx SpecSolve PLaws SpecOpt SpecBudget PBudget POptEx PBudgetEx.
Import ListNotations.
Open Scope R_scope.

(** *** C68 *)
Theorem C68_budget srt (VS : valid_sort xops srt) n p X y l k s fit M mu tol N : (1 <= n)%nat -> single_fit srt n p X y l k s fit -> targets_ok l n y ->
  0 < M -> (forall j, (j < p)%nat -> mean_square n X j <= M) ->
  0 < mu -> (forall j, (j < p)%nat -> nonzero_column n X j -> mu <= total_curvature k (curvature l n X j)) ->
  accepted fit -> s_tolerance s = Fin tol -> 0 < tol ->
  (1 <= s_ws_start_size s)%nat -> (1 <= s_max_epochs s)%nat ->
  calm_schedule (s_use_acceleration s) (s_K s) (s_max_epochs s) ->
  accel_safe (s_use_acceleration s) (s_K s) (Nat.min (s_ws_start_size s) p) (s_max_epochs s) ->
  4 * loss1 l n y (fun _ => 0) * (INR (p + 1) * M + ridge k) ^ 2 < INR N * (mu * tol ^ 2) ->
  settles_by N p (stationary tol (loss1 l n y) p X (pen1 k)) fit.
Proof. exact (fun Hn HF Hy HM0 HM Hmu0 Hmu => c68_single srt VS n p Hn X y l k s fit HF Hy M mu HM0 HM Hmu0 Hmu tol N). Qed.
Print Assumptions C68_budget.
Theorem C68_budget_multitask_lasso srt (VS : valid_sort xops srt) n p T X Y a s fit M mu tol N : (1 <= n)%nat -> multi_fit srt n p T X Y (MtLassoPen a) s fit ->
  0 < M -> (forall j, (j < p)%nat -> mean_square n X j <= M) ->
  0 < mu -> (forall j, (j < p)%nat -> nonzero_column n X j -> mu <= mean_square n X j) ->
  accepted fit -> s_tolerance s = Fin tol -> 0 < tol ->
  (1 <= s_ws_start_size s)%nat -> (1 <= s_max_epochs s)%nat ->
  calm_schedule (s_use_acceleration s) (s_K s) (s_max_epochs s) ->
  accel_safe (s_use_acceleration s) (s_K s) (Nat.min (s_ws_start_size s) p * T) (s_max_epochs s) ->
  4 * quad_loss_mt n T Y (fun _ _ => 0) * (INR (p + 1) * M) ^ 2 < INR N * (mu * tol ^ 2) ->
  settles_by_mt N p T (stationary_mt tol (quad_loss_mt n T Y) p T X (penT (MtLassoPen a))) fit.
Proof. exact (fun Hn HF HM0 HM Hmu0 Hmu => c68_multi srt VS n p Hn T X Y a s fit HF M mu HM0 HM Hmu0 Hmu tol N). Qed.
Print Assumptions C68_budget_multitask_lasso.
(** the MCP example of C25 (whose settings are covered by the example of C27): 2.4 million
    iterations suffice for a tolerance of 1/100 *)
Example C68_nonvacuous :
  (forall j, (j < 3)%nat -> mean_square 3 (entry exE) j <= 10 / 3) /\
  (forall j, (j < 3)%nat -> nonzero_column 3 (entry exE) j -> 1 <= total_curvature (McpPen (1/10) 3) (curvature Squared 3 (entry exE) j)) /\
  (forall j, (j < 3)%nat -> nonzero_column 3 (entry exE) j -> 4 / 3 <= mean_square 3 (entry exE) j) /\
  4 * loss1 Squared 3 oy (fun _ => 0) * (INR (3 + 1) * (10 / 3) + ridge (McpPen (1/10) 3)) ^ 2 < INR big * (1 * (1 / 100) ^ 2).
Proof. exact ex_budget. Qed.
