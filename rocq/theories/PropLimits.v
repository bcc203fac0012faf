(** C88-C90: special and limiting settings. *)
From Coq Require Import List ZArith Bool Arith Reals.
From Flocq Require Import Core BinarySingleNaN.
From Verif Require Import Ops Arr IEEE SpecSolve MUtils MDatasets MDatafits MPenalties MCd MHyper MEstimators XR SpecPen VecR RSum SpecLin SpecData PLaws SpecOpt SpecPath SpecLimits PDataEx POptEx PPathEx PFloat PRoundEx PRunsEx PTraceEx PNullEx2 PLimits PLimitsFl PLimitsEx.
Import ListNotations.
Open Scope R_scope.

(** *** C88: an elastic net whose [l1_ratio] is one is the Lasso; exact arithmetic: whole fits *)
Theorem C88_ratio_one srt (VS : valid_sort xops srt) n p X y l a s fit fit' : (1 <= n)%nat -> single_fit srt n p X y l (EnetPen a 1) s fit -> single_fit srt n p X y l (LassoPen a) s fit' ->
  accepted fit -> accepted fit' -> forall m, fit m = fit' m.
Proof. exact (ratio_one_fit srt VS n p X y l a s fit fit'). Qed.
Print Assumptions C88_ratio_one.
Example C88_nonvacuous : (single_fit (dsort xops) 2 2 lmX lmy Squared (EnetPen (1/10) 1) (settings (gpr (1/10) 1)) (fit_e lmX lmy (1/10) 1) /\ accepted (fit_e lmX lmy (1/10) 1)) /\
  (single_fit (dsort xops) 2 2 lmX lmy Squared (LassoPen (1/10)) (settings (gpr (1/10) 1)) (fit_l lmX lmy (1/10) 1) /\ accepted (fit_l lmX lmy (1/10) 1)) /\ valid_sort xops (dsort xops).
Proof. exact (conj (ex_fit_e _ _ _ _ tenth_pos one_ratio) (conj (ex_fit_l _ _ _ _ tenth_pos) xr_sort)). Qed.
(** floating point: proximal step, score and value have the same bits *)
Theorem C88_ratio_one_floats prec emax (Hp : Prec_gt_0 prec) (Hm : Prec_lt_emax prec emax) lm : let o := ieee_ops prec emax Hp Hm lm in
  (forall a v t, is_finite a = true -> is_finite t = true -> pen_prox (l1l2_penalty o) (L1PlusL2 a (f1 o)) v t = pen_prox (l1_penalty o) (L1 a) v t) /\
  (forall a w g ws, Forall (fun x => is_finite x = true) w -> pen_subdiff_distance (l1l2_penalty o) (L1PlusL2 a (f1 o)) w g ws = pen_subdiff_distance (l1_penalty o) (L1 a) w g ws) /\
  (forall a w, reduces prec emax Hp Hm lm -> is_finite (ndot o w w) = true -> pen_value (l1l2_penalty o) (L1PlusL2 a (f1 o)) w = pen_value (l1_penalty o) (L1 a) w).
Proof. exact (ratio_one_floats prec emax Hp Hm lm). Qed.
Print Assumptions C88_ratio_one_floats.
Example C88_floats_nonvacuous : reduces 53 1024 Hprec64 Hmax64 libm64 /\ is_finite (tenth 1) = true /\
  (let run_e := fit_unchecked (elastic_net_check_ref ops64) (elastic_net_fit_dense ops64 srt64) rpr1 (Dataset rX ry) in
   let run_l := fit_unchecked (lasso_check_ref ops64) (lasso_fit_dense ops64 srt64) rpr1 (Dataset rX ry) in
   run_e = run_l /\ exists x, run_e = Ret (Ok x) /\ x <> repeat (f0 ops64) (length x)).
Proof. exact (conj reduces64 (conj tenth_fin (agreeb_ok _ _ _ ratio_one_run))). Qed.
(** multi-task: the elastic net with ratio one stays at zero where the Lasso does not *)
Theorem C88_multitask_refuted : exists srt n p T X Y a s fit fit', valid_sort xops srt /\ (1 <= n)%nat /\ multi_fit srt n p T X Y (MtEnetPen a 1) s fit /\ multi_fit srt n p T X Y (MtLassoPen a) s fit' /\
  accepted fit /\ accepted fit' /\ (forall m, fit m = Ret (Ok (xm p T (fun _ _ => 0)))) /\ exists N, forall m, (N <= m)%nat -> fit' m <> fit m.
Proof. exact ratio_one_mt_refuted. Qed.
Print Assumptions C88_multitask_refuted.

(** *** C89: without absolute values in the penalty, long runs solve the equations of (ridge) regression up to the tolerance *)
Theorem C89_equations srt (VS : valid_sort xops srt) n p X y l k s fit t b : (1 <= n)%nat -> targets_ok l n y -> single_fit srt n p X y l k s fit -> accepted fit -> patient p 1 s t ->
  l1_weight k 0 -> l2_weight k b -> settles p (fun w => solves_equations t l n p X y b w) fit.
Proof. exact (equations_fit srt VS n p X y l k s fit t b). Qed.
Print Assumptions C89_equations.
(** a Lasso at level zero: no other model has a noticeably smaller training loss *)
Theorem C89_least_squares srt (VS : valid_sort xops srt) n p X y l s fit t : (1 <= n)%nat -> targets_ok l n y -> single_fit srt n p X y l (LassoPen 0) s fit -> accepted fit -> patient p 1 s t ->
  settles p (fun w => solves_equations t l n p X y 0 w /\ forall v, loss1 l n y (lin p X w) <= loss1 l n y (lin p X v) + t * gap p w v) fit.
Proof. exact (unpenalised_fit srt VS n p X y l s fit t). Qed.
Print Assumptions C89_least_squares.
(** ridge regression: close to the solution of the equations *)
Theorem C89_ridge srt (VS : valid_sort xops srt) n p X y l a s fit t v : (1 <= n)%nat -> targets_ok l n y -> 0 < a -> single_fit srt n p X y l (EnetPen a 0) s fit -> accepted fit -> patient p 1 s t ->
  solves_equations 0 l n p X y a v ->
  settles p (fun w => solves_equations t l n p X y a w /\ Sum p (fun j => (w j - v j) ^ 2) <= INR p * (t / a) ^ 2) fit.
Proof. exact (ridge_fit srt VS n p X y l a s fit t v). Qed.
Print Assumptions C89_ridge.
Example C89_nonvacuous : (single_fit (dsort xops) 2 2 lmX lmy Squared (LassoPen 0) (settings (gpr 0 0)) (fit_l lmX lmy 0 0) /\ accepted (fit_l lmX lmy 0 0)) /\ l1_weight (LassoPen 0) 0 /\ l2_weight (LassoPen 0) 0 /\
  (single_fit (dsort xops) 2 2 lmX lmy Squared (EnetPen 1 0) (settings (gpr 1 0)) (fit_e lmX lmy 1 0) /\ accepted (fit_e lmX lmy 1 0)) /\
  solves_equations 0 Squared 2 2 lmX lmy 1 lmv /\ (forall a s, patient 2 1 (settings (gpr a s)) (1/1000)) /\ targets_ok Squared 2 lmy /\ valid_sort xops (dsort xops).
Proof. exact (conj (ex_fit_l _ _ _ _ (Rle_refl 0)) (conj eq_refl (conj eq_refl (conj (ex_fit_e _ _ _ _ Rle_0_1 zero_ratio) (conj lmv_solves (conj (patient_gpr 2 1) (conj I xr_sort))))))). Qed.

(** *** C90: the elastic net gives similar columns similar coefficients *)
Theorem C90_grouping srt (VS : valid_sort xops srt) n p X y l a r s fit t : (1 <= n)%nat -> targets_ok l n y -> 0 < a -> 0 <= r < 1 -> single_fit srt n p X y l (EnetPen a r) s fit -> accepted fit -> patient p 1 s t ->
  settles p (fun w => forall j k, (j < p)%nat -> (k < p)%nat -> Rabs (w j - w k) <= (column_gap l n X y j k + 2 * t) / (a * (1 - r))) fit.
Proof. exact (grouping_fit srt VS n p X y l a r s fit t). Qed.
Print Assumptions C90_grouping.
Theorem C90_identical_columns srt (VS : valid_sort xops srt) n p X y l a r s fit t : (1 <= n)%nat -> targets_ok l n y -> 0 < a -> 0 <= r < 1 -> single_fit srt n p X y l (EnetPen a r) s fit -> accepted fit -> patient p 1 s t ->
  settles p (fun w => forall j k, (j < p)%nat -> (k < p)%nat -> (forall i, (i < n)%nat -> X i j = X i k) -> Rabs (w j - w k) <= 2 * t / (a * (1 - r))) fit.
Proof. exact (twins_fit srt VS n p X y l a r s fit t). Qed.
Print Assumptions C90_identical_columns.
Example C90_nonvacuous : (single_fit (dsort xops) 2 2 nearX lmy Squared (EnetPen (1/10) (1/2)) (settings (gpr (1/10) (1/2))) (fit_e nearX lmy (1/10) (1/2)) /\ accepted (fit_e nearX lmy (1/10) (1/2))) /\
  0 < column_gap Squared 2 nearX lmy 0 1 /\ (single_fit (dsort xops) 3 3 (entry exE) oy Logistic (EnetPen (1/10) (1/2)) (settings (opr 0 0)) fit_log /\ accepted fit_log /\ targets_ok Logistic 3 oy).
Proof. exact (conj (ex_fit_e _ _ _ _ tenth_pos half_ratio) (conj near_gap (conj ex_fit_log (conj (proj1 (proj2 ex_accepted)) (proj1 (proj2 ex_ok)))))). Qed.
(** the Lasso, in double precision: two identical columns, one gets a coefficient above 0.4 and the other zero *)
Theorem C90_lasso_refuted : (forall i, mget twinX i 0 = mget twinX i 1) /\
  exists a b, fit_unchecked (lasso_check_ref ops64) (lasso_fit_dense ops64 srt64) twpr (Dataset twinX twiny) = Ret (Ok [a; b]) /\ flt ops64 (tenth 4) a = true /\ feq ops64 b (f0 ops64) = true.
Proof. exact twins_refuted. Qed.
Print Assumptions C90_lasso_refuted.
