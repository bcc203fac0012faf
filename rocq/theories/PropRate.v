(** Property theorems C97 and C98: how fast the objective of a fit approaches its minimum.  Exact
    arithmetic; [fit N] is a call with iteration budget [N]. *)
From Coq Require Import List ZArith Bool Arith Reals.
From Verif Require Import Ops Arr MUtils MDatasets MHyper MEstimators XR RSum SpecPen SpecLin SpecData PDataEx SpecSolve PLaws SpecOpt SpecBudget PRateFit POptEx PCertEx PRateEx.
Import ListNotations.
Open Scope R_scope.

(** *** C97: elastic net, squared or logistic loss, [l1_ratio < 1].  [u]: any competitor. *)
Theorem C97_linear_rate srt (VS : valid_sort xops srt) n p X y l k s fit M mu tol : (1 <= n)%nat -> single_fit srt n p X y l k s fit -> targets_ok l n y -> convex1 k -> 0 < ridge k ->
  0 < M -> (forall j, (j < p)%nat -> mean_square n X j <= M) ->
  0 < mu -> (forall j, (j < p)%nat -> nonzero_column n X j -> mu <= total_curvature k (curvature l n X j)) ->
  s_tolerance s = Fin tol -> (1 <= s_ws_start_size s)%nat -> (1 <= s_max_epochs s)%nat ->
  calm_schedule (s_use_acceleration s) (s_K s) (s_max_epochs s) ->
  let objf := objective (loss1 l n y) p X (pen1 k) in
  let q := INR p * (INR (p + 1) * M + ridge k) ^ 2 / (INR p * (INR (p + 1) * M + ridge k) ^ 2 + ridge k * mu) in
  forall N v, fit N = Ret (Ok v) -> exists w, v = xv p w /\
    (stationary tol (loss1 l n y) p X (pen1 k) w \/ forall u, objf w - objf u <= q ^ (N / 2) * (objf (fun _ => 0) - objf u)).
Proof. exact (fun Hn HF Hy Hc Hg HM0 HM Hmu0 Hmu Et Hw Hme Hcal N v Hv => c97_linear srt VS n p Hn X y l k s fit HF Hy Hc M mu HM0 HM Hmu0 Hmu tol N v Et Hw Hme Hcal Hv Hg). Qed.
Print Assumptions C97_linear_rate.
(** so do the coefficients; [u]: the minimiser *)
Theorem C97_coefficients srt (VS : valid_sort xops srt) n p X y l k s fit M mu tol : (1 <= n)%nat -> single_fit srt n p X y l k s fit -> targets_ok l n y -> convex1 k -> 0 < ridge k ->
  0 < M -> (forall j, (j < p)%nat -> mean_square n X j <= M) ->
  0 < mu -> (forall j, (j < p)%nat -> nonzero_column n X j -> mu <= total_curvature k (curvature l n X j)) ->
  s_tolerance s = Fin tol -> (1 <= s_ws_start_size s)%nat -> (1 <= s_max_epochs s)%nat ->
  calm_schedule (s_use_acceleration s) (s_K s) (s_max_epochs s) ->
  let objf := objective (loss1 l n y) p X (pen1 k) in
  let q := INR p * (INR (p + 1) * M + ridge k) ^ 2 / (INR p * (INR (p + 1) * M + ridge k) ^ 2 + ridge k * mu) in
  forall N v, fit N = Ret (Ok v) -> exists w, v = xv p w /\
    (stationary tol (loss1 l n y) p X (pen1 k) w \/
     forall u, (forall u', objf u <= objf u') -> ridge k / 2 * Sum p (fun j => (w j - u j) ^ 2) <= q ^ (N / 2) * (objf (fun _ => 0) - objf u)).
Proof. exact (fun Hn HF Hy Hc Hg HM0 HM Hmu0 Hmu Et Hw Hme Hcal N v Hv => c97_coefficients srt VS n p Hn X y l k s fit HF Hy Hc M mu HM0 HM Hmu0 Hmu tol N v Et Hw Hme Hcal Hv Hg). Qed.
Print Assumptions C97_coefficients.
(** a logistic elastic net with tolerance 0, which returns for every budget *)
Example C97_nonvacuous : single_fit (dsort xops) 3 3 (entry exE) oy Logistic (EnetPen (1/10) (1/2)) rst fit_rate /\ targets_ok Logistic 3 oy /\ convex1 (EnetPen (1/10) (1/2)) /\
  ((forall j, (j < 3)%nat -> mean_square 3 (entry exE) j <= 10 / 3) /\
   (forall j, (j < 3)%nat -> nonzero_column 3 (entry exE) j -> 1 / 3 <= total_curvature (EnetPen (1/10) (1/2)) (curvature Logistic 3 (entry exE) j)) /\
   (forall j, (j < 3)%nat -> nonzero_column 3 (entry exE) j -> 4 / 3 <= mean_square 3 (entry exE) j) /\
   ridge (EnetPen (1/10) (1/2)) = 1 / 20) /\
  (s_tolerance rst = Fin 0 /\ (1 <= s_ws_start_size rst)%nat /\ (1 <= s_max_epochs rst)%nat /\ calm_schedule (s_use_acceleration rst) (s_K rst) (s_max_epochs rst)) /\
  forall m, exists v, fit_rate m = Ret (Ok v).
Proof. exact (conj rate_fit (conj (proj1 (proj2 ex_ok)) (conj I (conj rate_curv (conj rate_settings rate_returns))))). Qed.

(** *** C98: [c] is the weight of the absolute values, [alpha] resp. [alpha * l1_ratio] *)
Theorem C98_rate srt (VS : valid_sort xops srt) n p X y l k s fit M mu tol c : (1 <= n)%nat -> single_fit srt n p X y l k s fit -> targets_ok l n y -> convex1 k -> l1_weight k c -> 0 < c ->
  0 < M -> (forall j, (j < p)%nat -> mean_square n X j <= M) ->
  0 < mu -> (forall j, (j < p)%nat -> nonzero_column n X j -> mu <= total_curvature k (curvature l n X j)) ->
  s_tolerance s = Fin tol -> (1 <= s_ws_start_size s)%nat -> (1 <= s_max_epochs s)%nat ->
  calm_schedule (s_use_acceleration s) (s_K s) (s_max_epochs s) ->
  let objf := objective (loss1 l n y) p X (pen1 k) in
  let o := objf (fun _ => 0) in
  forall N v, fit N = Ret (Ok v) -> exists w, v = xv p w /\
    (stationary tol (loss1 l n y) p X (pen1 k) w \/ forall u, objf w - objf u <= (16 * (o * (INR (p + 1) * M + ridge k) / c) ^ 2 / mu + o) / INR (S (N / 2))).
Proof. exact (fun Hn HF Hy Hc Hlw Hc0 HM0 HM Hmu0 Hmu Et Hw Hme Hcal N v Hv => c98_sublinear srt VS n p Hn X y l k s fit HF Hy Hc M mu HM0 HM Hmu0 Hmu tol N v Et Hw Hme Hcal Hv c Hlw Hc0). Qed.
Print Assumptions C98_rate.
Theorem C98_rate_multitask_lasso srt (VS : valid_sort xops srt) n p T X Y a s fit M mu tol : (1 <= n)%nat -> multi_fit srt n p T X Y (MtLassoPen a) s fit ->
  0 < M -> (forall j, (j < p)%nat -> mean_square n X j <= M) ->
  0 < mu -> (forall j, (j < p)%nat -> nonzero_column n X j -> mu <= mean_square n X j) ->
  s_tolerance s = Fin tol -> (1 <= s_ws_start_size s)%nat -> (1 <= s_max_epochs s)%nat ->
  calm_schedule (s_use_acceleration s) (s_K s) (s_max_epochs s) ->
  let objf := objective_mt (quad_loss_mt n T Y) p T X (penT (MtLassoPen a)) in
  let o := objf (fun _ _ => 0) in
  forall N v, fit N = Ret (Ok v) -> exists W, v = xm p T W /\
    (stationary_mt tol (quad_loss_mt n T Y) p T X (penT (MtLassoPen a)) W \/ forall U, objf W - objf U <= (16 * (o * (INR (p + 1) * M) / a) ^ 2 / mu + o) / INR (S (N / 2))).
Proof. exact (fun Hn HF HM0 HM Hmu0 Hmu Et Hw Hme Hcal N v Hv => c98_multi srt VS n p Hn T X Y a s fit HF M mu HM0 HM Hmu0 Hmu tol N v Et Hw Hme Hcal Hv). Qed.
Print Assumptions C98_rate_multitask_lasso.
(** the fit of C97, and the multi-task Lasso of C28 *)
Example C98_nonvacuous : l1_weight (EnetPen (1/10) (1/2)) (1/10 * (1/2)) /\
  multi_fit (dsort xops) 3 3 2 (entry exE) oY (MtLassoPen (1/10)) (settings (opr (1/10) 3)) fit_mtl /\
  settles_mt 3 2 (stationary_mt (1/100) (quad_loss_mt 3 2 oY) 3 2 (entry exE) (penT (MtLassoPen (1/10)))) fit_mtl.
Proof. exact (conj eq_refl (conj ex_fit_mtl ex_mtl_settles)). Qed.
