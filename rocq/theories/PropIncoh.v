(** Property theorems C107: when a Lasso fit selects only, and exactly, the relevant features.
    Exact arithmetic; the vocabulary is that of [SpecOracle] and [SpecIncoh]. *)
From Coq Require Import List ZArith Bool Arith Reals.
From Verif Require Import Ops Arr MUtils MDatasets MHyper MEstimators XR RSum SpecPen SpecLin SpecData SpecSolve PLaws SpecOpt SpecOracle SpecIncoh PIncoh POracleEx PColsEx PIncohEx.
Import ListNotations.
Open Scope R_scope.

(** [S]: contains the relevant features; the other columns are, up to something orthogonal to the
    columns in [S], combinations of these with coefficients of total size at most [rho]; [lam]: noise
    outside [S].  The second part adds the conditions of C99. *)
Theorem C107_lasso_selects_no_irrelevant_feature srt (VS : valid_sort xops srt) n p X y beta e a s fit tol S q rho lam : (1 <= n)%nat -> single_fit srt n p X y Squared (LassoPen a) s fit -> accepted fit -> s_tolerance s = Fin tol -> 0 < tol ->
  (1 <= s_ws_start_size s)%nat -> (1 <= s_max_epochs s)%nat ->
  calm_schedule (s_use_acceleration s) (s_K s) (s_max_epochs s) -> accel_safe (s_use_acceleration s) (s_K s) (Nat.min (s_ws_start_size s) p) (s_max_epochs s) ->
  generated n p X y beta e -> support_in p S beta -> incoherent n p X S q rho -> noise_outside n p X S q e lam -> rho * (a + tol) + lam < a - tol ->
  settles p (fun w => (forall j, (j < p)%nat -> S j = false -> w j = 0) /\
    forall kappa lam', noise_level n p X e lam' -> lam' + tol <= a / 2 -> 0 < kappa -> restricted_eigenvalue n p X S kappa ->
      (forall j, (j < p)%nat -> S j = true -> 6 * a * size_of p S < kappa * Rabs (beta j)) ->
      forall j, (j < p)%nat -> (w j = 0 <-> beta j = 0) /\ (beta j <> 0 -> 0 < w j * beta j)) fit.
Proof. exact (fun Hn => c107_single srt VS n p Hn X y beta e a s fit tol S q rho lam). Qed.
Print Assumptions C107_lasso_selects_no_irrelevant_feature.
Theorem C107_multitask_lasso_selects_no_irrelevant_feature srt (VS : valid_sort xops srt) n p T X Y Be E a s fit tol S q rho lam : (1 <= n)%nat -> multi_fit srt n p T X Y (MtLassoPen a) s fit -> accepted fit -> s_tolerance s = Fin tol -> 0 < tol ->
  (1 <= s_ws_start_size s)%nat -> (1 <= s_max_epochs s)%nat ->
  calm_schedule (s_use_acceleration s) (s_K s) (s_max_epochs s) -> accel_safe (s_use_acceleration s) (s_K s) (Nat.min (s_ws_start_size s) p * T) (s_max_epochs s) ->
  generated_mt n p T X Y Be E -> support_in_mt p T S Be -> incoherent n p X S q rho -> noise_outside_mt n p T X S q E lam -> rho * (a + tol) + lam < a - tol ->
  settles_mt p T (fun W => (forall j t, (j < p)%nat -> (t < T)%nat -> S j = false -> W j t = 0) /\
    forall kappa lam', noise_level_mt n p T X E lam' -> lam' + tol <= a / 2 -> 0 < kappa -> restricted_eigenvalue_mt n p T X S kappa ->
      (forall j, (j < p)%nat -> S j = true -> 6 * a * size_of p S < kappa * norm2 (map (Be j) (seq 0 T))) ->
      forall j, (j < p)%nat -> (exists t, (t < T)%nat /\ W j t <> 0) <-> S j = true) fit.
Proof. exact (fun Hn => c107_multi srt VS n p Hn T X Y Be E a s fit tol S q rho lam). Qed.
Print Assumptions C107_multitask_lasso_selects_no_irrelevant_feature.
(** an irrelevant column, half of it explained by the relevant one, noise 1/100 on the first sample:
    all the conditions hold and exactly the relevant column is selected *)
Example C107_nonvacuous : single_fit (dsort xops) 2 2 inX iny Squared (LassoPen (1/10)) (settings kpr) fit_in /\
  multi_fit (dsort xops) 2 2 2 inX inY (MtLassoPen (1/10)) (settings kpr) fit_in_mt /\ (accepted fit_in /\ accepted fit_in_mt) /\
  (let s := settings kpr in s_tolerance s = Fin (1/100) /\ (1 <= s_ws_start_size s)%nat /\ (1 <= s_max_epochs s)%nat /\
    calm_schedule (s_use_acceleration s) (s_K s) (s_max_epochs s) /\ forall d, accel_safe (s_use_acceleration s) (s_K s) d (s_max_epochs s)) /\
  incoherent 2 2 inX oS inq (1/2) /\ 1/2 * (1/10 + 1/100) + 1/400 < 1/10 - 1/100 /\
  (generated 2 2 inX iny inb oe /\ support_in 2 oS inb /\ noise_outside 2 2 inX oS inq oe (1/400) /\ noise_level 2 2 inX oe (1/200) /\
    restricted_eigenvalue 2 2 inX oS (1/2) /\ forall j, (j < 2)%nat -> oS j = true -> 6 * (1/10) * size_of 2 oS < 1/2 * Rabs (inb j)) /\
  (generated_mt 2 2 2 inX inY inB oE /\ support_in_mt 2 2 oS inB /\ noise_outside_mt 2 2 2 inX oS inq oE (1/400) /\ noise_level_mt 2 2 2 inX oE (1/200) /\
    restricted_eigenvalue_mt 2 2 2 inX oS (1/2) /\ forall j, (j < 2)%nat -> oS j = true -> 6 * (1/10) * size_of 2 oS < 1/2 * norm2 (map (inB j) (seq 0 2))) /\
  settles 2 (fun w => 0 < w 0%nat /\ w 1%nat = 0) fit_in.
Proof. exact (conj in_fit (conj in_fit_mt (conj in_accepted (conj in_settings (conj in_incoherent (conj in_exact (conj in_data (conj in_data_mt in_recovers)))))))). Qed.
