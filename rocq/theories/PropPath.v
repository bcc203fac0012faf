(** Property theorems C59, C60, C61 and C62: fits along the regularisation path, with changed
    targets, with reordered columns, and the correlations of the features with the residuals.
    [fit m] is a call with iteration budget [m] (see [SpecOpt]); [patient] settings are those with
    which long runs reach the tolerance (C27). *)
From Coq Require Import List ZArith Bool Arith Lia Reals.
From Verif Require Import Ops Arr MDatasets MHyper MEstimators XR IEEE RSum SpecPen SpecLin SpecData SpecSolve SpecOpt SpecSym SpecPath PLaws PFitOpt PCert PDataEx POptEx PCertEx PRunsEx PPath PStab PScreen PPathEx.
Import ListNotations.
Open Scope R_scope.

(** *** C59: a larger [alpha] never gives a larger model nor a better training loss *)
(** models meeting the stopping criterion with tolerances [e1], [e2] *)
Theorem C59_models l k n p X y a1 a2 e1 e2 w v : (1 <= n)%nat -> convex1 k -> pen1_range (with_alpha k a1) -> pen1_range (with_alpha k a2) ->
  stationary e1 (loss1 l n y) p X (pen1 (with_alpha k a1)) w -> stationary e2 (loss1 l n y) p X (pen1 (with_alpha k a2)) v ->
  (a2 - a1) * (size k p v - size k p w) <= (e1 + e2) * gap p w v /\
  loss1 l n y (lin p X w) - loss1 l n y (lin p X v) <= a1 * (size k p v - size k p w) + e1 * gap p w v.
Proof. exact (path_gap l k n p X y a1 a2 e1 e2 w v). Qed.
Print Assumptions C59_models.
Theorem C59_models_multitask k n p T X Y a1 a2 e1 e2 W V : (1 <= n)%nat -> convexT k -> penT_range (with_alpha_mt k a1) -> penT_range (with_alpha_mt k a2) ->
  stationary_mt e1 (quad_loss_mt n T Y) p T X (penT (with_alpha_mt k a1)) W -> stationary_mt e2 (quad_loss_mt n T Y) p T X (penT (with_alpha_mt k a2)) V ->
  (a2 - a1) * (size_mt k p T V - size_mt k p T W) <= (e1 + e2) * gap_mt p T W V /\
  quad_loss_mt n T Y (lin_mt p X W) - quad_loss_mt n T Y (lin_mt p X V) <= a1 * (size_mt k p T V - size_mt k p T W) + e1 * gap_mt p T W V.
Proof. exact (path_gap_mt k n p T X Y a1 a2 e1 e2 W V). Qed.
Print Assumptions C59_models_multitask.
(** exact solutions *)
Theorem C59_solutions l k n p X y a1 a2 w v : (1 <= n)%nat -> convex1 k -> pen1_range (with_alpha k a1) -> pen1_range (with_alpha k a2) -> 0 <= a1 < a2 ->
  stationary 0 (loss1 l n y) p X (pen1 (with_alpha k a1)) w -> stationary 0 (loss1 l n y) p X (pen1 (with_alpha k a2)) v ->
  size k p v <= size k p w /\ loss1 l n y (lin p X w) <= loss1 l n y (lin p X v).
Proof. exact (path_exact l k n p X y a1 a2 w v). Qed.
Print Assumptions C59_solutions.
(** what long runs return *)
Theorem C59_path srt srt' (VS : valid_sort xops srt) (VS' : valid_sort xops srt') n p X y l k a1 a2 s s' fit fit' t1 t2 c1 c2 : (1 <= n)%nat -> 0 <= a1 < a2 -> targets_ok l n y ->
  single_fit srt n p X y l (with_alpha k a1) s fit -> single_fit srt' n p X y l (with_alpha k a2) s' fit' -> accepted fit -> accepted fit' ->
  patient p 1 s t1 -> patient p 1 s' t2 -> l1_weight (with_alpha k a1) c1 -> 0 < c1 -> l1_weight (with_alpha k a2) c2 -> 0 < c2 ->
  let B := loss1 l n y (fun _ => 0) / c1 + loss1 l n y (fun _ => 0) / c2 in
  exists N w v, (forall m, (N <= m)%nat -> fit m = Ret (Ok (xv p w)) /\ fit' m = Ret (Ok (xv p v))) /\
    size k p v <= size k p w + (t1 + t2) * B / (a2 - a1) /\
    loss1 l n y (lin p X w) <= loss1 l n y (lin p X v) + (t1 + a1 * (t1 + t2) / (a2 - a1)) * B.
Proof. exact (path_fits srt srt' VS VS' n p X y l k a1 a2 s s' fit fit' t1 t2 c1 c2). Qed.
Print Assumptions C59_path.
Theorem C59_path_multitask srt srt' (VS : valid_sort xops srt) (VS' : valid_sort xops srt') n p T X Y a1 a2 s s' fit fit' t1 t2 : (1 <= n)%nat -> 0 < a1 < a2 ->
  multi_fit srt n p T X Y (MtLassoPen a1) s fit -> multi_fit srt' n p T X Y (MtLassoPen a2) s' fit' -> accepted fit -> accepted fit' ->
  patient p T s t1 -> patient p T s' t2 ->
  let L0 := Sum n (fun i => Sum T (fun t => Y i t ^ 2)) / (2 * INR n) in let B := L0 / a1 + L0 / a2 in
  let size := fun W : rmat => Sum p (fun j => norm2 (map (W j) (seq 0 T))) in
  exists N W V, (forall m, (N <= m)%nat -> fit m = Ret (Ok (xm p T W)) /\ fit' m = Ret (Ok (xm p T V))) /\
    size V <= size W + (t1 + t2) * B / (a2 - a1) /\
    quad_loss_mt n T Y (lin_mt p X W) <= quad_loss_mt n T Y (lin_mt p X V) + (t1 + a1 * (t1 + t2) / (a2 - a1)) * B.
Proof. exact (path_fits_mt srt srt' VS VS' n p T X Y a1 a2 s s' fit fit' t1 t2). Qed.
Print Assumptions C59_path_multitask.
(** but a larger [alpha] can select more features: both with [alpha = 1], at most one with [alpha = 1/4] *)
Theorem C59_larger_alpha_sparser_refuted : exists X y s s' fit fit',
  single_fit (dsort xops) 2 2 X y Squared (LassoPen (1/4)) s fit /\ single_fit (dsort xops) 2 2 X y Squared (LassoPen 1) s' fit' /\
  settles 2 (fun w => w 1%nat = 0) fit /\ settles 2 (fun w => w 0%nat <> 0 /\ w 1%nat <> 0) fit'.
Proof. exact (ex_intro _ paX (ex_intro _ pay (ex_intro _ _ (ex_intro _ _ (ex_intro _ (fit_pa (1/4)) (ex_intro _ (fit_pa 1)
  (conj (proj1 (ex_fit_pa (1/4) quarter_pos)) (conj (proj1 (ex_fit_pa 1 Rle_0_1)) (conj pa4_zero pa1_both))))))))). Qed.
Print Assumptions C59_larger_alpha_sparser_refuted.
Example C59_nonvacuous : single_fit (dsort xops) 3 3 (entry exE) oy Squared (with_alpha (EnetPen 0 (1/2)) (1/10)) (settings (opr (1/10) (1/2))) (fit_el (entry exE) oy (1/10)) /\ accepted (fit_el (entry exE) oy (1/10)) /\
  single_fit (dsort xops) 3 3 (entry exE) oy Squared (with_alpha (EnetPen 0 (1/2)) (1/5)) (settings (opr (1/5) (1/2))) (fit_el (entry exE) oy (1/5)) /\ accepted (fit_el (entry exE) oy (1/5)) /\
  (forall a s, patient 3 1 (settings (opr a s)) (1/100) /\ patient 3 2 (settings (opr a s)) (1/100)) /\
  (multi_fit (dsort xops) 3 3 2 (entry exE) oY (MtLassoPen (1/10)) (settings (opr (1/10) 3)) (fit_ml (entry exE) oY (1/10)) /\ accepted (fit_ml (entry exE) oY (1/10))) /\
  (multi_fit (dsort xops) 3 3 2 (entry exE) oY (MtLassoPen (1/5)) (settings (opr (1/5) 3)) (fit_ml (entry exE) oY (1/5)) /\ accepted (fit_ml (entry exE) oY (1/5))) /\
  stationary 0 (loss1 Squared 2 pay) 2 paX (pen1 (with_alpha (LassoPen 0) 1)) pa1 /\ stationary 0 (loss1 Squared 2 pay) 2 paX (pen1 (with_alpha (LassoPen 0) (1/4))) pa4.
Proof. exact (conj (proj1 (ex_fit_el _ _ _ tenth_pos)) (conj (proj2 (ex_fit_el _ _ _ tenth_pos)) (conj (proj1 (ex_fit_el _ _ _ fifth_pos)) (conj (proj2 (ex_fit_el _ _ _ fifth_pos))
  (conj patient_opr (conj (ex_fit_ml _ _ _ tenth_pos') (conj (ex_fit_ml _ _ _ fifth_pos') (conj pa1_exact pa4_exact)))))))). Qed.

(** *** C60: predictions of least-squares fits move by at most as much as the targets *)
Theorem C60_models k n p X y y' e1 e2 b w v : (1 <= n)%nat -> pen1_range k -> l2_weight k b -> 0 <= e1 + e2 ->
  stationary e1 (quad_loss n y) p X (pen1 k) w -> stationary e2 (quad_loss n y') p X (pen1 k) v ->
  rms n (fun i => lin p X w i - lin p X v i) <= rms n (fun i => y i - y' i) + sqrt ((e1 + e2) * gap p w v) /\
  b * Sum p (fun j => (w j - v j) ^ 2) <= (e1 + e2) * gap p w v + rms n (fun i => y i - y' i) ^ 2 / 4.
Proof. exact (targets_models k n p X y y' e1 e2 b w v). Qed.
Print Assumptions C60_models.
Theorem C60_targets srt srt' (VS : valid_sort xops srt) (VS' : valid_sort xops srt') n p X y y' k s s' fit fit' t1 t2 c : (1 <= n)%nat ->
  single_fit srt n p X y Squared k s fit -> single_fit srt' n p X y' Squared k s' fit' -> accepted fit -> accepted fit' ->
  patient p 1 s t1 -> patient p 1 s' t2 -> l1_weight k c -> 0 < c ->
  exists N w v, (forall m, (N <= m)%nat -> fit m = Ret (Ok (xv p w)) /\ fit' m = Ret (Ok (xv p v))) /\
    rms n (fun i => lin p X w i - lin p X v i) <= rms n (fun i => y i - y' i) + sqrt ((t1 + t2) * ((quad_loss n y (fun _ => 0) + quad_loss n y' (fun _ => 0)) / c)).
Proof. exact (targets_fits srt srt' VS VS' n p X y y' k s s' fit fit' t1 t2 c). Qed.
Print Assumptions C60_targets.
Theorem C60_targets_multitask srt srt' (VS : valid_sort xops srt) (VS' : valid_sort xops srt') n p T X Y Y' a s s' fit fit' t1 t2 : (1 <= n)%nat -> 0 < a ->
  multi_fit srt n p T X Y (MtLassoPen a) s fit -> multi_fit srt' n p T X Y' (MtLassoPen a) s' fit' -> accepted fit -> accepted fit' ->
  patient p T s t1 -> patient p T s' t2 ->
  let L0 := fun Y : rmat => Sum n (fun i => Sum T (fun t => Y i t ^ 2)) / (2 * INR n) in
  exists N W V, (forall m, (N <= m)%nat -> fit m = Ret (Ok (xm p T W)) /\ fit' m = Ret (Ok (xm p T V))) /\
    rms_mt n T (fun i t => lin_mt p X W i t - lin_mt p X V i t) <= rms_mt n T (fun i t => Y i t - Y' i t) + sqrt ((t1 + t2) * ((L0 Y + L0 Y') / a)).
Proof. exact (targets_fits_mt srt srt' VS VS' n p T X Y Y' a s s' fit fit' t1 t2). Qed.
Print Assumptions C60_targets_multitask.
Example C60_nonvacuous : (single_fit (dsort xops) 3 3 (entry exE) oy Squared (EnetPen (1/10) (1/2)) (settings (opr (1/10) (1/2))) (fit_el (entry exE) oy (1/10)) /\ accepted (fit_el (entry exE) oy (1/10))) /\
  (single_fit (dsort xops) 3 3 (entry exE) (fun i => oY i 1) Squared (EnetPen (1/10) (1/2)) (settings (opr (1/10) (1/2))) (fit_el (entry exE) (fun i => oY i 1) (1/10)) /\ accepted (fit_el (entry exE) (fun i => oY i 1) (1/10))) /\
  (multi_fit (dsort xops) 3 3 2 (entry exE) oY (MtLassoPen (1/10)) (settings (opr (1/10) 3)) (fit_ml (entry exE) oY (1/10)) /\ accepted (fit_ml (entry exE) oY (1/10))) /\
  (multi_fit (dsort xops) 3 3 2 (entry exE) (fun i t => 2 * oY i t) (MtLassoPen (1/10)) (settings (opr (1/10) 3)) (fit_ml (entry exE) (fun i t => 2 * oY i t) (1/10)) /\ accepted (fit_ml (entry exE) (fun i t => 2 * oY i t) (1/10))) /\
  (forall a s, patient 3 1 (settings (opr a s)) (1/100) /\ patient 3 2 (settings (opr a s)) (1/100)).
Proof. exact (conj (ex_fit_el _ _ _ tenth_pos) (conj (ex_fit_el _ _ _ tenth_pos) (conj (ex_fit_ml _ _ _ tenth_pos') (conj (ex_fit_ml _ _ _ tenth_pos') patient_opr)))). Qed.

(** *** C61: the order of the columns matters only within the tolerance *)
Theorem C61_column_order srt srt' (VS : valid_sort xops srt) (VS' : valid_sort xops srt') n p X y l k s s' fit fit' sg t1 t2 c : (1 <= n)%nat -> col_perm p sg -> targets_ok l n y ->
  single_fit srt n p X y l k s fit -> single_fit srt' n p (fun i j => X i (sg j)) y l k s' fit' -> accepted fit -> accepted fit' ->
  patient p 1 s t1 -> patient p 1 s' t2 -> l1_weight k c -> 0 < c ->
  exists N w v, (forall m, (N <= m)%nat -> fit m = Ret (Ok (xv p w)) /\ fit' m = Ret (Ok (xv p v))) /\
    (l = Squared -> Sum n (fun i => (lin p X w i - lin p (fun i j => X i (sg j)) v i) ^ 2) / INR n <= (t1 + t2) * (2 * loss1 l n y (fun _ => 0) / c)) /\
    (forall a r, k = EnetPen a r -> r < 1 -> Sum p (fun j => (w (sg j) - v j) ^ 2) <= INR p * ((t1 + t2) / (a * (1 - r))) ^ 2).
Proof. exact (order_fits srt srt' VS VS' n p X y l k s s' fit fit' sg t1 t2 c). Qed.
Print Assumptions C61_column_order.
Theorem C61_column_order_multitask srt srt' (VS : valid_sort xops srt) (VS' : valid_sort xops srt') n p T X Y a s s' fit fit' sg t1 t2 : (1 <= n)%nat -> col_perm p sg -> 0 < a ->
  multi_fit srt n p T X Y (MtLassoPen a) s fit -> multi_fit srt' n p T (fun i j => X i (sg j)) Y (MtLassoPen a) s' fit' -> accepted fit -> accepted fit' ->
  patient p T s t1 -> patient p T s' t2 ->
  exists N W V, (forall m, (N <= m)%nat -> fit m = Ret (Ok (xm p T W)) /\ fit' m = Ret (Ok (xm p T V))) /\
    Sum n (fun i => Sum T (fun t => (lin_mt p X W i t - lin_mt p (fun i j => X i (sg j)) V i t) ^ 2)) / INR n <= (t1 + t2) * (Sum n (fun i => Sum T (fun t => Y i t ^ 2)) / INR n / a).
Proof. exact (order_fits_mt srt srt' VS VS' n p T X Y a s s' fit fit' sg t1 t2). Qed.
Print Assumptions C61_column_order_multitask.
(** the coefficients themselves can depend on the order: swapping two equal columns changes nothing, yet their coefficients differ *)
Theorem C61_coefficients_follow_columns_refuted : exists (X : mat f64) t pr a b, mnr X = 1%nat /\ mnc X = 2%nat /\ mwf X /\ (forall i, mget X i 0 = mget X i 1) /\
  fit_unchecked (lasso_check_ref ops64) (lasso_fit_dense ops64 srt64) pr (Dataset X t) = Ret (Ok [a; b]) /\ feq ops64 a b = false.
Proof. exact equal_columns. Qed.
Print Assumptions C61_coefficients_follow_columns_refuted.
Example C61_nonvacuous : let sg := (fun j => match j with 0 => 1 | 1 => 0 | _ => j end)%nat in col_perm 3 sg /\
  (single_fit (dsort xops) 3 3 (entry exE) oy Squared (EnetPen (1/10) (1/2)) (settings (opr (1/10) (1/2))) (fit_el (entry exE) oy (1/10)) /\ accepted (fit_el (entry exE) oy (1/10))) /\
  (single_fit (dsort xops) 3 3 (fun i j => entry exE i (sg j)) oy Squared (EnetPen (1/10) (1/2)) (settings (opr (1/10) (1/2))) (fit_el (fun i j => entry exE i (sg j)) oy (1/10)) /\ accepted (fit_el (fun i j => entry exE i (sg j)) oy (1/10))) /\
  (multi_fit (dsort xops) 3 3 2 (fun i j => entry exE i (sg j)) oY (MtLassoPen (1/10)) (settings (opr (1/10) 3)) (fit_ml (fun i j => entry exE i (sg j)) oY (1/10)) /\ accepted (fit_ml (fun i j => entry exE i (sg j)) oY (1/10))) /\
  (forall a s, patient 3 1 (settings (opr a s)) (1/100) /\ patient 3 2 (settings (opr a s)) (1/100)).
Proof. exact (conj swap01 (conj (ex_fit_el _ _ _ tenth_pos) (conj (ex_fit_el _ _ _ tenth_pos) (conj (ex_fit_ml _ _ _ tenth_pos') patient_opr)))). Qed.

(** *** C62: correlations of the features with the residuals tell which coefficients are zero *)
Theorem C62_correlations srt (VS : valid_sort xops srt) n p X y l k s fit t c b : (1 <= n)%nat -> targets_ok l n y -> single_fit srt n p X y l k s fit -> accepted fit -> patient p 1 s t ->
  l1_weight k c -> 0 < c -> l2_weight k b ->
  settles p (fun w => forall j, (j < p)%nat -> (w j = 0 -> Rabs (correlation l n p X y w j) <= c + t) /\
    (w j <> 0 -> Rabs (correlation l n p X y w j - (c * (w j / Rabs (w j)) + b * w j)) <= t)) fit.
Proof. exact (read_fit srt VS n p X y l k s fit t c b). Qed.
Print Assumptions C62_correlations.
Theorem C62_correlations_multitask srt (VS : valid_sort xops srt) n p T X Y a s fit t : (1 <= n)%nat -> 0 < a -> multi_fit srt n p T X Y (MtLassoPen a) s fit -> accepted fit -> patient p T s t ->
  settles_mt p T (fun W => forall j, (j < p)%nat -> norm2 (correlation_mt n p T X Y W j) <= a + t /\ ((exists u, (u < T)%nat /\ W j u <> 0) -> a - t <= norm2 (correlation_mt n p T X Y W j))) fit.
Proof. exact (read_fit_mt srt VS n p T X Y a s fit t). Qed.
Print Assumptions C62_correlations_multitask.
(** a feature whose correlation is below the weight, by a margin, in one exact solution gets an exact zero *)
Theorem C62_exact_zeros srt (VS : valid_sort xops srt) n p X y k s fit t c v : (1 <= n)%nat -> single_fit srt n p X y Squared k s fit -> accepted fit -> patient p 1 s t ->
  l1_weight k c -> 0 < c -> stationary 0 (quad_loss n y) p X (pen1 k) v ->
  settles p (fun w => forall j, (j < p)%nat ->
    Rabs (correlation Squared n p X y v j) + rms n (fun i => X i j) * sqrt (t * (quad_loss n y (fun _ => 0) / c + Sum p (fun j => Rabs (v j)))) + t < c -> w j = 0) fit.
Proof. exact (screen_fit srt VS n p X y k s fit t c v). Qed.
Print Assumptions C62_exact_zeros.
Theorem C62_exact_zeros_multitask srt (VS : valid_sort xops srt) n p T X Y a s fit t V : (1 <= n)%nat -> 0 < a -> multi_fit srt n p T X Y (MtLassoPen a) s fit -> accepted fit -> patient p T s t ->
  stationary_mt 0 (quad_loss_mt n T Y) p T X (penT (MtLassoPen a)) V ->
  settles_mt p T (fun W => forall j, (j < p)%nat ->
    norm2 (correlation_mt n p T X Y V j) + rms n (fun i => X i j) * sqrt (t * (Sum n (fun i => Sum T (fun t => Y i t ^ 2)) / (2 * INR n) / a + Sum p (fun j => norm2 (map (V j) (seq 0 T))))) + t < a ->
    forall u, (u < T)%nat -> W j u = 0) fit.
Proof. exact (screen_fit_mt srt VS n p T X Y a s fit t V). Qed.
Print Assumptions C62_exact_zeros_multitask.
(** in these the margin is met, and the coefficients are exact zeros *)
Example C62_nonvacuous : (single_fit (dsort xops) 2 2 paX pay Squared (LassoPen (1/4)) (settings (papr (1/4))) (fit_pa (1/4)) /\ accepted (fit_pa (1/4)) /\ patient 2 1 (settings (papr (1/4))) (1/10000)) /\
  stationary 0 (loss1 Squared 2 pay) 2 paX (pen1 (LassoPen (1/4))) pa4 /\ settles 2 (fun w => w 1%nat = 0) (fit_pa (1/4)) /\
  (multi_fit (dsort xops) 1 2 2 pbX pbY (MtLassoPen 1) (settings (papr 1)) fit_pb /\ accepted fit_pb /\ patient 2 2 (settings (papr 1)) (1/10000)) /\
  stationary_mt 0 (quad_loss_mt 1 2 pbY) 2 2 pbX (penT (MtLassoPen 1)) pbV /\ settles_mt 2 2 (fun W => W 1%nat 0%nat = 0 /\ W 1%nat 1%nat = 0) fit_pb.
Proof. exact (conj (ex_fit_pa (1/4) quarter_pos) (conj pa4_exact (conj pa4_zero (conj ex_fit_pb (conj pb_exact pb_zero))))). Qed.
