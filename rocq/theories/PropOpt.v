(** Property theorems C25, C26, C27, C29, C30 and C39: what the solver does to the objective.
    Exact arithmetic; [fit m] is a call with iteration budget [m] (see [SpecOpt]). *)
From Coq Require Import List ZArith Bool Arith Lia Reals.
From Verif Require Import Ops Arr MUtils MDatasets MDatafits MDatafitsMT MPenalties MBlockPenalties MCd MBcd MHyper MEstimators XR RSum SpecPen SpecLin SpecData SpecDatafit SpecSolve SpecOpt SpecAccel PLaws PFitOpt PAccel PDataEx POptEx.
Import ListNotations.
Open Scope R_scope.

(** *** C25 *)
Theorem C25_no_worse_than_zero srt (VS : valid_sort xops srt) n p X y l k s fit : (1 <= n)%nat -> single_fit srt n p X y l k s fit ->
  targets_ok l n y -> steps_ok Rle k l n p X -> forall m v, fit m = Ret (Ok v) ->
  exists w, v = xv p w /\ objective (loss1 l n y) p X (pen1 k) w <= objective (loss1 l n y) p X (pen1 k) (fun _ => 0).
Proof. exact (fun Hn HF HY HS => c25_single srt VS n p Hn X y l k s fit HF HY HS). Qed.
Print Assumptions C25_no_worse_than_zero.
Theorem C25_no_worse_than_zero_multitask srt (VS : valid_sort xops srt) n p T X Y k s fit : (1 <= n)%nat -> multi_fit srt n p T X Y k s fit ->
  steps_ok_mt Rle k n p X -> forall m v, fit m = Ret (Ok v) ->
  exists W, v = xm p T W /\ objective_mt (quad_loss_mt n T Y) p T X (penT k) W <= objective_mt (quad_loss_mt n T Y) p T X (penT k) (fun _ _ => 0).
Proof. exact (fun Hn HF HS => c25_multi srt VS n p Hn T X Y k s fit HF HS). Qed.
Print Assumptions C25_no_worse_than_zero_multitask.
Example C25_nonvacuous : valid_sort xops (dsort xops) /\
  single_fit (dsort xops) 3 3 (entry exE) oy Squared (McpPen (1/10) 3) (settings (opr (1/10) 3)) fit_mcp /\ steps_ok Rle (McpPen (1/10) 3) Squared 3 3 (entry exE) /\
  (exists m w, (forall m', (m <= m')%nat -> fit_mcp m' = Ret (Ok (xv 3 w))) /\ stationary (1/100) (loss1 Squared 3 oy) 3 (entry exE) (pen1 (McpPen (1/10) 3)) w /\ exists j, (j < 3)%nat /\ w j <> 0) /\
  single_fit (dsort xops) 3 3 (entry exE) oy Logistic (EnetPen (1/10) (1/2)) (settings (opr 0 0)) fit_log /\ targets_ok Logistic 3 oy /\
  multi_fit (dsort xops) 3 3 2 (entry exE) oY (MtLassoPen (1/10)) (settings (opr (1/10) 3)) fit_mtl /\
  multi_fit (dsort xops) 3 3 2 (entry exE) oY (BlockMcpPen (1/10) 3) (settings (opr 0 0)) fit_mtm /\ steps_ok_mt Rle (BlockMcpPen (1/10) 3) 3 3 (entry exE).
Proof.
  exact (conj xr_sort (conj ex_fit_mcp (conj (proj1 (proj2 (proj2 (proj2 ex_ok)))) (conj ex_mcp_result (conj ex_fit_log (conj (proj1 (proj2 ex_ok)) (conj ex_fit_mtl (conj ex_fit_mtm (proj2 (proj2 (proj2 (proj2 ex_ok)))))))))))).
Qed.

(** *** C26 *)
Theorem C26_more_iterations_never_hurt srt (VS : valid_sort xops srt) n p X y l k s fit : (1 <= n)%nat -> single_fit srt n p X y l k s fit ->
  targets_ok l n y -> steps_ok Rle k l n p X -> forall m m' v', (m <= m')%nat -> fit m' = Ret (Ok v') ->
  exists w w', fit m = Ret (Ok (xv p w)) /\ v' = xv p w' /\
    objective (loss1 l n y) p X (pen1 k) w' <= objective (loss1 l n y) p X (pen1 k) w.
Proof. exact (fun Hn HF HY HS => c26_single srt VS n p Hn X y l k s fit HF HY HS). Qed.
Print Assumptions C26_more_iterations_never_hurt.
Theorem C26_more_iterations_never_hurt_multitask srt (VS : valid_sort xops srt) n p T X Y k s fit : (1 <= n)%nat -> multi_fit srt n p T X Y k s fit ->
  steps_ok_mt Rle k n p X -> forall m m' v', (m <= m')%nat -> fit m' = Ret (Ok v') ->
  exists W W', fit m = Ret (Ok (xm p T W)) /\ v' = xm p T W' /\
    objective_mt (quad_loss_mt n T Y) p T X (penT k) W' <= objective_mt (quad_loss_mt n T Y) p T X (penT k) W.
Proof. exact (fun Hn HF HS => c26_multi srt VS n p Hn T X Y k s fit HF HS). Qed.
Print Assumptions C26_more_iterations_never_hurt_multitask.

(** *** C27 *)
Theorem C27_convergence srt (VS : valid_sort xops srt) n p X y l k s fit tol : (1 <= n)%nat -> single_fit srt n p X y l k s fit ->
  targets_ok l n y -> steps_ok Rlt k l n p X -> accepted fit -> s_tolerance s = Fin tol -> 0 < tol ->
  (1 <= s_ws_start_size s)%nat -> (1 <= s_max_epochs s)%nat ->
  calm_schedule (s_use_acceleration s) (s_K s) (s_max_epochs s) ->
  accel_safe (s_use_acceleration s) (s_K s) (Nat.min (s_ws_start_size s) p) (s_max_epochs s) ->
  settles p (stationary tol (loss1 l n y) p X (pen1 k)) fit.
Proof. exact (fun Hn HF HY HS => c27_single srt VS n p Hn X y l k s fit HF HY HS tol). Qed.
Print Assumptions C27_convergence.
Theorem C27_convergence_multitask_lasso srt (VS : valid_sort xops srt) n p T X Y a s fit tol : (1 <= n)%nat -> multi_fit srt n p T X Y (MtLassoPen a) s fit ->
  accepted fit -> s_tolerance s = Fin tol -> 0 < tol ->
  (1 <= s_ws_start_size s)%nat -> (1 <= s_max_epochs s)%nat ->
  calm_schedule (s_use_acceleration s) (s_K s) (s_max_epochs s) ->
  accel_safe (s_use_acceleration s) (s_K s) (Nat.min (s_ws_start_size s) p * T) (s_max_epochs s) ->
  settles_mt p T (stationary_mt tol (quad_loss_mt n T Y) p T X (penT (MtLassoPen a))) fit.
Proof. exact (fun Hn HF => c27_multi srt VS n p Hn T X Y a s fit HF tol). Qed.
Print Assumptions C27_convergence_multitask_lasso.
(** the example of C25, the settings of the examples, and the default settings *)
Example C27_nonvacuous : accepted fit_mcp /\ accepted fit_log /\ accepted fit_mtl /\ steps_ok Rlt (McpPen (1/10) 3) Squared 3 3 (entry exE) /\
  (forall a b, let s := settings (opr a b) in s_tolerance s = Fin (1/100) /\ (1 <= s_ws_start_size s)%nat /\ (1 <= s_max_epochs s)%nat /\
    calm_schedule (s_use_acceleration s) (s_K s) (s_max_epochs s) /\ accel_safe (s_use_acceleration s) (s_K s) (Nat.min (s_ws_start_size s) 3) (s_max_epochs s) /\
    accel_safe (s_use_acceleration s) (s_K s) (Nat.min (s_ws_start_size s) 3 * 2) (s_max_epochs s)) /\
  calm_schedule true 5 1000 /\ (forall p, (5 <= p)%nat -> accel_safe true 5 (Nat.min 10 p) 1000).
Proof.
  exact (conj (proj1 ex_accepted) (conj (proj1 (proj2 ex_accepted)) (conj (proj2 (proj2 ex_accepted)) (conj (proj1 (proj2 (proj2 ex_ok))) (conj ex_settings calm_5_1000))))).
Qed.

(** *** C29 *)
Theorem C29_converged_is_final srt (VS : valid_sort xops srt) n p X y l k s fit tol : (1 <= n)%nat -> single_fit srt n p X y l k s fit ->
  forall m m' w, s_tolerance s = Fin tol -> (m <= m')%nat ->
  fit m = Ret (Ok (xv p w)) -> stationary tol (loss1 l n y) p X (pen1 k) w -> fit m' = Ret (Ok (xv p w)).
Proof. exact (fun Hn HF => c29_single srt VS n p Hn X y l k s fit HF tol). Qed.
Print Assumptions C29_converged_is_final.
Theorem C29_converged_is_final_multitask_lasso srt (VS : valid_sort xops srt) n p T X Y a s fit tol : (1 <= n)%nat -> multi_fit srt n p T X Y (MtLassoPen a) s fit ->
  forall m m' W, s_tolerance s = Fin tol -> (m <= m')%nat ->
  fit m = Ret (Ok (xm p T W)) -> stationary_mt tol (quad_loss_mt n T Y) p T X (penT (MtLassoPen a)) W -> fit m' = Ret (Ok (xm p T W)).
Proof. exact (fun Hn HF => c29_multi srt VS n p Hn T X Y a s fit HF tol). Qed.
Print Assumptions C29_converged_is_final_multitask_lasso.

(** *** C30 *)
Theorem C30_extrapolation_outcome n p X y l k f H w z ws e K v w' z' H' : (1 <= n)%nat -> single_accel n p X y l k f ->
  NoDup ws -> (forall j, In j ws -> (j < p)%nat) ->
  f (xm (S K) (length ws) H) (xv p w) (xv n z) ws e K v = Ret (w', z', H') ->
  H' = xm (S K) (length ws) (fun k a => if (k =? e mod S K)%nat then w (nth a ws 0%nat) else H k a) /\
  ((w' = xv p w /\ z' = xv n z) \/
   exists u, w' = xv p u /\ z' = xv n (lin p X u) /\ (forall j, ~ In j ws -> u j = 0) /\
     loss1 l n y (lin p X u) + Sum p (fun j => pen1 k (u j)) < loss1 l n y z + Sum p (fun j => pen1 k (w j)) /\
     exists c, Sum K c = 1 /\ forall a, (a < length ws)%nat -> u (nth a ws 0%nat) = Sum K (fun i => c i * H i a)).
Proof. exact (fun Hn => c30_single n p Hn X y l k f H w z ws e K v w' z' H'). Qed.
Print Assumptions C30_extrapolation_outcome.
Theorem C30_extrapolation_outcome_multitask n p T X Y k f H W Z ws e K v W' Z' H' : (1 <= n)%nat -> multi_accel n p T X Y k f ->
  NoDup ws -> (forall j, In j ws -> (j < p)%nat) ->
  f (xm (S K) (length ws * T) H) (xm p T W) (xm n T Z) ws e K v = Ret (W', Z', H') ->
  (W' = xm p T W /\ Z' = xm n T Z) \/
   exists U, W' = xm p T U /\ Z' = xm n T (lin_mt p X U) /\ (forall j t, ~ In j ws -> U j t = 0) /\
     quad_loss_mt n T Y (lin_mt p X U) + Sum p (fun j => penT k (map (U j) (seq 0 T))) < quad_loss_mt n T Y Z + Sum p (fun j => penT k (map (W j) (seq 0 T))) /\
     exists c, Sum K c = 1 /\ forall a t, (a < length ws)%nat -> (t < T)%nat -> U (nth a ws 0%nat) t = Sum K (fun i => c i * H i (a * T + t)%nat).
Proof. exact (fun Hn => c30_multi n p Hn T X Y k f H W Z ws e K v W' Z' H'). Qed.
Print Assumptions C30_extrapolation_outcome_multitask.
(** an extrapolation from [0] to [2] which is accepted *)
Example C30_nonvacuous : single_accel 1 1 aX (fun _ => 2) Squared (LassoPen 0) af /\
  af (xm 2 1 (fun _ _ => 2)) (xv 1 (fun _ => 0)) (xv 1 (fun _ => 0)) [0%nat] 1 1 false = Ret ([Fin 2], [Fin 2], Mat 2 1 [[Fin 2]; [Fin 0]]).
Proof. exact (conj ex_accel ex_accel_accepted). Qed.

(** *** C39 *)
Theorem C39_zero_column srt (VS : valid_sort xops srt) n p X y l k s fit : (1 <= n)%nat -> single_fit srt n p X y l k s fit ->
  forall m v j, (j < p)%nat -> (forall i, (i < n)%nat -> X i j = 0) -> fit m = Ret (Ok v) ->
  exists w, v = xv p w /\ w j = 0.
Proof. exact (fun Hn HF => c39_single srt VS n p Hn X y l k s fit HF). Qed.
Print Assumptions C39_zero_column.
Theorem C39_zero_column_multitask srt (VS : valid_sort xops srt) n p T X Y k s fit : (1 <= n)%nat -> multi_fit srt n p T X Y k s fit ->
  forall m v j, (j < p)%nat -> (forall i, (i < n)%nat -> X i j = 0) -> fit m = Ret (Ok v) ->
  exists W, v = xm p T W /\ forall t, (t < T)%nat -> W j t = 0.
Proof. exact (fun Hn HF => c39_multi srt VS n p Hn T X Y k s fit HF). Qed.
Print Assumptions C39_zero_column_multitask.
(** the last column of the example is zero *)
Example C39_nonvacuous : forall i, entry exE i 2 = 0.
Proof. exact (proj2 (proj2 (proj2 (proj2 (proj2 (proj2 ex_entries)))))). Qed.
