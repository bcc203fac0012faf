(** Property theorems C55: least squares with orthogonal columns, where the answer is known in
    closed form (see [SpecOrth]). [fit m] is a call with iteration budget [m]. *)
From Coq Require Import List ZArith Bool Arith Lia Reals.
From Verif Require Import Ops Arr MEstimators XR RSum SpecPen SpecLin SpecSolve SpecOpt SpecData SpecDatafit SpecNull SpecOrth PLaws POrth POrthEx.
Import ListNotations.
Open Scope R_scope.

(** *** C55: one iteration is enough and its result is the closed form *)
Theorem C55_closed_form srt (VS : valid_sort xops srt) n p X y k s fit tol : (1 <= n)%nat -> single_fit srt n p X y Squared k s fit -> accepted fit -> s_tolerance s = Fin tol ->
  orthogonal n p X -> steps_ok Rle k Squared n p X -> (p <= s_ws_start_size s)%nat -> (1 <= s_max_epochs s)%nat ->
  accel_safe (s_use_acceleration s) (s_K s) p (s_max_epochs s) ->
  (stationary tol (loss1 Squared n y) p X (pen1 k) (fun _ => 0) /\ forall m, fit m = Ret (Ok (xv p (fun _ => 0)))) \/
  (~ stationary tol (loss1 Squared n y) p X (pen1 k) (fun _ => 0) /\ forall m, (1 <= m)%nat -> fit m = Ret (Ok (xv p (closed_form k n X y)))).
Proof. exact (fun Hn => orth_single srt VS n p Hn X y k s fit tol). Qed.
Print Assumptions C55_closed_form.
Theorem C55_closed_form_multitask srt (VS : valid_sort xops srt) n p T X Y k s fit tol : (1 <= n)%nat -> multi_fit srt n p T X Y k s fit -> accepted fit -> s_tolerance s = Fin tol -> 0 <= tol ->
  orthogonal n p X -> steps_ok_mt Rle k n p X -> (p <= s_ws_start_size s)%nat -> (1 <= s_max_epochs s)%nat ->
  accel_safe (s_use_acceleration s) (s_K s) (p * T) (s_max_epochs s) ->
  let small := forall j, (j < p)%nat -> zero_level k (norm2 (map (fun t => Sum n (fun i => X i j * Y i t) / INR n) (seq 0 T))) <= slope_mt k + tol in
  (small /\ forall m, fit m = Ret (Ok (xm p T (fun _ _ => 0)))) \/
  (~ small /\ forall m, (1 <= m)%nat -> fit m = Ret (Ok (xm p T (closed_form_mt k n T X Y)))).
Proof. exact (fun Hn => orth_multi srt VS n p Hn T X Y k s fit tol). Qed.
Print Assumptions C55_closed_form_multitask.
(** and the closed form minimises the objective over all models, also for the nonconvex MCP *)
Theorem C55_closed_form_optimal n p X y k : (1 <= n)%nat -> pen1_range k -> orthogonal n p X -> steps_ok Rle k Squared n p X ->
  forall w, objective (loss1 Squared n y) p X (pen1 k) (closed_form k n X y) <= objective (loss1 Squared n y) p X (pen1 k) w.
Proof. exact (fun Hn => orth_minimises (dsort xops) xr_sort n p Hn X y k). Qed.
Print Assumptions C55_closed_form_optimal.
Theorem C55_closed_form_optimal_multitask n p T X Y k : (1 <= n)%nat -> penT_range k -> orthogonal n p X -> steps_ok_mt Rle k n p X ->
  forall W, objective_mt (quad_loss_mt n T Y) p T X (penT k) (closed_form_mt k n T X Y) <= objective_mt (quad_loss_mt n T Y) p T X (penT k) W.
Proof. exact (fun Hn => orth_minimises_mt (dsort xops) xr_sort n p Hn T X Y k). Qed.
Print Assumptions C55_closed_form_optimal_multitask.
(** MCP on two samples and three columns (one of them zero): the closed form is (2, 3/4, 0) *)
Example C55_nonvacuous : single_fit (dsort xops) 2 3 orX ory Squared (McpPen (1/2) 3) (settings orpr) fit_or /\ accepted fit_or /\ valid_sort xops (dsort xops) /\
  orthogonal 2 3 orX /\ steps_ok Rle (McpPen (1/2) 3) Squared 2 3 orX /\
  ((3 <= s_ws_start_size (settings orpr))%nat /\ (1 <= s_max_epochs (settings orpr))%nat /\
   accel_safe (s_use_acceleration (settings orpr)) (s_K (settings orpr)) 3 (s_max_epochs (settings orpr)) /\
   accel_safe (s_use_acceleration (settings orpr)) (s_K (settings orpr)) (3 * 2) (s_max_epochs (settings orpr)) /\ s_tolerance (settings orpr) = Fin (1/100)) /\
  ~ stationary (1/100) (loss1 Squared 2 ory) 3 orX (pen1 (McpPen (1/2) 3)) (fun _ => 0) /\
  map (closed_form (McpPen (1/2) 3) 2 orX ory) [0;1;2]%nat = [2; 3/4; 0].
Proof. exact (conj (proj1 ex_fit_or) (conj (proj2 ex_fit_or) (conj xr_sort (conj or_orth (conj or_gamma (conj or_settings (conj or_not_zero or_values))))))). Qed.
Example C55_nonvacuous_multitask : multi_fit (dsort xops) 2 3 2 orX orY (BlockMcpPen (1/2) 3) (settings orpr) fit_orT /\ accepted fit_orT /\
  orthogonal 2 3 orX /\ steps_ok_mt Rle (BlockMcpPen (1/2) 3) 2 3 orX /\ map (closed_form_mt (BlockMcpPen (1/2) 3) 2 2 orX orY 1) [0;1]%nat = [9/20; 3/5].
Proof. exact (conj (proj1 ex_fit_orT) (conj (proj2 ex_fit_orT) (conj or_orth (conj or_gamma or_values_mt)))). Qed.
