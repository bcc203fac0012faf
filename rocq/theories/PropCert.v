(** Property theorem C28: the stopping criterion certifies near-optimality. *)
From Coq Require Import List ZArith Bool Arith Lia Reals.
From Verif Require Import Ops Arr MDatasets MHyper MEstimators XR RSum SpecPen SpecLin SpecData SpecSolve SpecOpt PLaws PFitOpt PCert PDataEx POptEx PCertEx.
Import ListNotations.
Open Scope R_scope.

(** any [w] whose violations are at most [eps], against any competitor; [eps = 0]: global minimiser *)
Theorem C28_certificate l k n p X y eps w : (1 <= n)%nat -> pen1_range k -> convex1 k -> stationary eps (loss1 l n y) p X (pen1 k) w ->
  forall v, objective (loss1 l n y) p X (pen1 k) w <= objective (loss1 l n y) p X (pen1 k) v + eps * Sum p (fun j => Rabs (w j - v j)).
Proof. exact (fun Hn Hr Hc Hs v => c28_single l k n p X y eps w v Hn Hr Hc Hs). Qed.
Print Assumptions C28_certificate.
Theorem C28_certificate_multitask k n p T X Y eps W : (1 <= n)%nat -> penT_range k -> convexT k -> stationary_mt eps (quad_loss_mt n T Y) p T X (penT k) W ->
  forall V, objective_mt (quad_loss_mt n T Y) p T X (penT k) W <= objective_mt (quad_loss_mt n T Y) p T X (penT k) V
    + eps * Sum p (fun j => norm2 (map (fun t => W j t - V j t) (seq 0 T))).
Proof. exact (fun Hn Hr Hc Hs V => c28_multi k n p T X Y eps W V Hn Hr Hc Hs). Qed.
Print Assumptions C28_certificate_multitask.
(** a returned model, against any competitor; [c] is [alpha], resp. [alpha * l1_ratio] *)
Theorem C28_gap_of_fit srt (VS : valid_sort xops srt) n p X y l k s fit c eps : (1 <= n)%nat -> single_fit srt n p X y l k s fit -> targets_ok l n y ->
  l1_weight k c -> 0 < c -> 0 <= eps ->
  forall m w, fit m = Ret (Ok (xv p w)) -> stationary eps (loss1 l n y) p X (pen1 k) w ->
  forall v, objective (loss1 l n y) p X (pen1 k) w <= objective (loss1 l n y) p X (pen1 k) v
    + 2 * eps * objective (loss1 l n y) p X (pen1 k) (fun _ => 0) / c.
Proof. exact (fun Hn => c28_fit srt VS n p Hn X y l k s fit c eps). Qed.
Print Assumptions C28_gap_of_fit.
Theorem C28_gap_of_fit_multitask srt (VS : valid_sort xops srt) n p T X Y k s fit c eps : (1 <= n)%nat -> multi_fit srt n p T X Y k s fit ->
  l1_weight_mt k c -> 0 < c -> 0 <= eps ->
  forall m W, fit m = Ret (Ok (xm p T W)) -> stationary_mt eps (quad_loss_mt n T Y) p T X (penT k) W ->
  forall V, objective_mt (quad_loss_mt n T Y) p T X (penT k) W <= objective_mt (quad_loss_mt n T Y) p T X (penT k) V
    + 2 * eps * objective_mt (quad_loss_mt n T Y) p T X (penT k) (fun _ _ => 0) / c.
Proof. exact (fun Hn => c28_fit_mt srt VS n p Hn T X Y k s fit c eps). Qed.
Print Assumptions C28_gap_of_fit_multitask.
(** with C27: a large enough budget gives a model within [2 * tol * objective(0) / c] of the optimum *)
Theorem C28_fits_are_near_optimal srt (VS : valid_sort xops srt) n p X y l k s fit tol c : (1 <= n)%nat -> single_fit srt n p X y l k s fit ->
  targets_ok l n y -> accepted fit -> s_tolerance s = Fin tol -> 0 < tol -> (1 <= s_ws_start_size s)%nat -> (1 <= s_max_epochs s)%nat ->
  calm_schedule (s_use_acceleration s) (s_K s) (s_max_epochs s) ->
  accel_safe (s_use_acceleration s) (s_K s) (Nat.min (s_ws_start_size s) p) (s_max_epochs s) ->
  l1_weight k c -> 0 < c ->
  settles p (fun w => forall v, objective (loss1 l n y) p X (pen1 k) w <= objective (loss1 l n y) p X (pen1 k) v
    + 2 * tol * objective (loss1 l n y) p X (pen1 k) (fun _ => 0) / c) fit.
Proof. exact (fun Hn => c28_settles srt VS n p Hn X y l k s fit tol c). Qed.
Print Assumptions C28_fits_are_near_optimal.
Theorem C28_multitask_lasso_near_optimal srt (VS : valid_sort xops srt) n p T X Y a s fit tol : (1 <= n)%nat -> multi_fit srt n p T X Y (MtLassoPen a) s fit ->
  accepted fit -> s_tolerance s = Fin tol -> 0 < tol -> (1 <= s_ws_start_size s)%nat -> (1 <= s_max_epochs s)%nat ->
  calm_schedule (s_use_acceleration s) (s_K s) (s_max_epochs s) ->
  accel_safe (s_use_acceleration s) (s_K s) (Nat.min (s_ws_start_size s) p * T) (s_max_epochs s) ->
  settles_mt p T (fun W => forall V, objective_mt (quad_loss_mt n T Y) p T X (penT (MtLassoPen a)) W <=
    objective_mt (quad_loss_mt n T Y) p T X (penT (MtLassoPen a)) V
    + 2 * tol * objective_mt (quad_loss_mt n T Y) p T X (penT (MtLassoPen a)) (fun _ _ => 0) / a) fit.
Proof. exact (fun Hn => c28_settles_mt srt VS n p Hn T X Y a s fit tol). Qed.
Print Assumptions C28_multitask_lasso_near_optimal.
(** one row, one column of ones, target 2, alpha 1: the minimiser [1] has no violation; the fits of
    [POptEx] meet the hypotheses on runs *)
Example C28_nonvacuous : stationary 0 (loss1 Squared 1 (fun _ => 2)) 1 (fun _ _ => 1) (pen1 (LassoPen 1)) (fun _ => 1) /\
  stationary_mt 0 (quad_loss_mt 1 1 (fun _ _ => 2)) 1 1 (fun _ _ => 1) (penT (MtLassoPen 1)) (fun _ _ => 1) /\
  single_fit (dsort xops) 3 3 (entry exE) oy Logistic (EnetPen (1/10) (1/2)) (settings (opr 0 0)) fit_log /\ targets_ok Logistic 3 oy /\ l1_weight (EnetPen (1/10) (1/2)) (1/10 * (1/2)) /\
  accepted fit_log /\ settles 3 (stationary (1/100) (loss1 Logistic 3 oy) 3 (entry exE) (pen1 (EnetPen (1/10) (1/2)))) fit_log /\
  settles_mt 3 2 (stationary_mt (1/100) (quad_loss_mt 3 2 oY) 3 2 (entry exE) (penT (MtLassoPen (1/10)))) fit_mtl.
Proof.
  exact (conj ex_min1 (conj ex_min1_mt (conj ex_fit_log (conj (proj1 (proj2 ex_ok)) (conj eq_refl (conj (proj1 (proj2 ex_accepted)) (conj ex_log_settles ex_mtl_settles))))))).
Qed.
