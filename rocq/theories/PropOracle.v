(** Property theorems C99: how well a Lasso fit recovers the coefficients which generated the
    targets.  Exact arithmetic; the vocabulary is that of [SpecOracle]. *)
From Coq Require Import List ZArith Bool Arith Reals.
From Verif Require Import Ops Arr MUtils MDatasets MHyper MEstimators XR RSum SpecPen SpecLin SpecData PDataEx SpecSolve PLaws SpecOpt SpecOracle POracle POptEx POracleEx.
Import ListNotations.
Open Scope R_scope.

(** [beta]: the generating coefficients; [e]: the noise, of level [lam]; [S]: contains the relevant
    features; the last part: relevant features with coefficients large enough are selected, with
    the right sign *)
Theorem C99_lasso_recovery srt (VS : valid_sort xops srt) n p X y beta e a s fit tol lam : (1 <= n)%nat -> single_fit srt n p X y Squared (LassoPen a) s fit -> accepted fit -> s_tolerance s = Fin tol -> 0 < tol ->
  (1 <= s_ws_start_size s)%nat -> (1 <= s_max_epochs s)%nat ->
  calm_schedule (s_use_acceleration s) (s_K s) (s_max_epochs s) -> accel_safe (s_use_acceleration s) (s_K s) (Nat.min (s_ws_start_size s) p) (s_max_epochs s) ->
  generated n p X y beta e -> noise_level n p X e lam ->
  settles p (fun w => let d j := w j - beta j in
    (lam + tol <= a -> msp n p X d <= 2 * a * Sum p (fun j => Rabs (beta j))) /\
    forall S kappa, support_in p S beta -> 0 < kappa -> restricted_eigenvalue n p X S kappa -> lam + tol <= a / 2 ->
      kappa * msp n p X d <= 9 / 4 * a ^ 2 * size_of p S /\ kappa * Sum p (fun j => Rabs (d j)) <= 6 * a * size_of p S /\
      forall j, (j < p)%nat -> 6 * a * size_of p S < kappa * Rabs (beta j) -> 0 < w j * beta j) fit.
Proof. exact (fun Hn => c99_single srt VS n p Hn X y beta e a s fit tol lam). Qed.
Print Assumptions C99_lasso_recovery.
(** the same with the Euclidean norms of the rows of coefficients *)
Theorem C99_multitask_lasso_recovery srt (VS : valid_sort xops srt) n p T X Y Be E a s fit tol lam : (1 <= n)%nat -> multi_fit srt n p T X Y (MtLassoPen a) s fit -> accepted fit -> s_tolerance s = Fin tol -> 0 < tol ->
  (1 <= s_ws_start_size s)%nat -> (1 <= s_max_epochs s)%nat ->
  calm_schedule (s_use_acceleration s) (s_K s) (s_max_epochs s) -> accel_safe (s_use_acceleration s) (s_K s) (Nat.min (s_ws_start_size s) p * T) (s_max_epochs s) ->
  generated_mt n p T X Y Be E -> noise_level_mt n p T X E lam ->
  let size (U : rmat) j := norm2 (map (U j) (seq 0 T)) in
  settles_mt p T (fun W => let d j t := W j t - Be j t in
    (lam + tol <= a -> msp_mt n p T X d <= 2 * a * Sum p (size Be)) /\
    forall S kappa, support_in_mt p T S Be -> 0 < kappa -> restricted_eigenvalue_mt n p T X S kappa -> lam + tol <= a / 2 ->
      kappa * msp_mt n p T X d <= 9 / 4 * a ^ 2 * size_of p S /\ kappa * Sum p (size d) <= 6 * a * size_of p S /\
      forall j, (j < p)%nat -> 6 * a * size_of p S < kappa * size Be j -> exists t, (t < T)%nat /\ W j t <> 0) fit.
Proof. exact (fun Hn => c99_multi srt VS n p Hn T X Y Be E a s fit tol lam). Qed.
Print Assumptions C99_multitask_lasso_recovery.
(** one relevant feature, coefficient 1, noise 1/100 on the first sample: the fit finds it *)
Example C99_nonvacuous : single_fit (dsort xops) 3 3 (entry exE) oyb Squared (LassoPen (1/10)) (settings (opr (1/10) 0)) fit_ora /\
  multi_fit (dsort xops) 3 3 2 (entry exE) oYB (MtLassoPen (1/10)) (settings (opr (1/10) 0)) fit_ora_mt /\ (accepted fit_ora /\ accepted fit_ora_mt) /\
  (generated 3 3 (entry exE) oyb ob oe /\ noise_level 3 3 (entry exE) oe (1/300) /\ support_in 3 oS ob /\ size_of 3 oS = 1) /\ restricted_eigenvalue 3 3 (entry exE) oS (10/3) /\
  (generated_mt 3 3 2 (entry exE) oYB oB oE /\ noise_level_mt 3 3 2 (entry exE) oE (1/300) /\ support_in_mt 3 2 oS oB) /\ restricted_eigenvalue_mt 3 3 2 (entry exE) oS (10/3) /\
  settles 3 (fun w => 0 < w 0%nat /\ Sum 3 (fun j => Rabs (w j - ob j)) <= 9 / 50) fit_ora.
Proof. exact (conj ora_fit (conj ora_fit_mt (conj ora_accepted (conj ora_data (conj ora_re (conj ora_data_mt (conj ora_re_mt ora_recovers))))))). Qed.
