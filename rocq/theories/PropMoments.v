(** C93 and C94: squared losses see second moments only; elastic nets as Lasso fits of augmented data
    (see [SpecMoments]). [fit m] is a call with iteration budget [m]. *)
From Coq Require Import List ZArith Bool Arith Lia Reals Lra.
From Verif Require Import Ops Arr MEstimators XR RSum SpecPen SpecLin SpecData SpecSolve SpecOpt SpecPath PLaws PLimitsEx SpecMoments PMoments PMomentsEx.
Import ListNotations.
Open Scope R_scope.

(** *** C93: data with the same second moments give the same fits, panics included *)
Theorem C93_second_moments srt (VS : valid_sort xops srt) n n' p X X' y y' k s fit fit' : (1 <= n)%nat -> (1 <= n')%nat ->
  single_fit srt n p X y Squared k s fit -> single_fit srt n' p X' y' Squared k s fit' -> accepted fit -> accepted fit' ->
  same_moments p n X y n' X' y' -> forall m, fit' m = fit m.
Proof. exact (fun Hn Hn' => moments_fit srt VS n n' p Hn Hn' X X' y y' k s fit fit'). Qed.
Print Assumptions C93_second_moments.
Theorem C93_second_moments_multitask srt (VS : valid_sort xops srt) n n' p T X X' Y Y' k s fit fit' : (1 <= n)%nat -> (1 <= n')%nat ->
  multi_fit srt n p T X Y k s fit -> multi_fit srt n' p T X' Y' k s fit' -> accepted fit -> accepted fit' ->
  same_moments_mt p T n X Y n' X' Y' -> forall m, fit' m = fit m.
Proof. exact (fun Hn Hn' => moments_fit_mt srt VS n n' p Hn Hn' T X X' Y Y' k s fit fit'). Qed.
Print Assumptions C93_second_moments_multitask.
(** mixtures of samples, for instance by an orthogonal matrix *)
Theorem C93_mixed_samples srt (VS : valid_sort xops srt) n n' p Q X y k s fit fit' : (1 <= n)%nat -> (1 <= n')%nat -> preserves_means n' n Q ->
  single_fit srt n p X y Squared k s fit -> single_fit srt n' p (mix n Q X) (mix1 n Q y) Squared k s fit' -> accepted fit -> accepted fit' -> forall m, fit' m = fit m.
Proof. exact (fun Hn Hn' HQ HF HF' Ha Ha' => moments_fit srt VS n n' p Hn Hn' X _ y _ k s fit fit' HF HF' Ha Ha' (mixed_moments n n' p Q X y Hn Hn' HQ)). Qed.
Print Assumptions C93_mixed_samples.
Theorem C93_mixed_samples_multitask srt (VS : valid_sort xops srt) n n' p T Q X Y k s fit fit' : (1 <= n)%nat -> (1 <= n')%nat -> preserves_means n' n Q ->
  multi_fit srt n p T X Y k s fit -> multi_fit srt n' p T (mix n Q X) (mix n Q Y) k s fit' -> accepted fit -> accepted fit' -> forall m, fit' m = fit m.
Proof. exact (fun Hn Hn' HQ HF HF' Ha Ha' => moments_fit_mt srt VS n n' p Hn Hn' T X _ Y _ k s fit fit' HF HF' Ha Ha' (fun t _ => mixed_moments n n' p Q X (fun i => Y i t) Hn Hn' HQ)). Qed.
Print Assumptions C93_mixed_samples_multitask.
(** two samples turned by the angle of a 3-4-5 triangle: other data, fits that do not stay at zero *)
Example C93_nonvacuous : preserves_means 2 2 turn /\ (mix 2 turn lmX 0%nat 0%nat <> lmX 0%nat 0%nat /\ lmX 0%nat 0%nat <> 0) /\
  (single_fit (dsort xops) 2 2 lmX lmy Squared (LassoPen 0) (settings (gpr 0 1)) (fit_ln 2 2 lmX lmy 0 1) /\ accepted (fit_ln 2 2 lmX lmy 0 1)) /\
  (single_fit (dsort xops) 2 2 (mix 2 turn lmX) (mix1 2 turn lmy) Squared (LassoPen 0) (settings (gpr 0 1)) (fit_ln 2 2 (mix 2 turn lmX) (mix1 2 turn lmy) 0 1) /\ accepted (fit_ln 2 2 (mix 2 turn lmX) (mix1 2 turn lmy) 0 1)) /\
  (multi_fit (dsort xops) 2 2 2 lmX lmY (MtLassoPen 1) (settings (gpr 1 1)) (fit_mn 2 2 2 lmX lmY 1) /\ accepted (fit_mn 2 2 2 lmX lmY 1)) /\
  (multi_fit (dsort xops) 2 2 2 (mix 2 turn lmX) (mix 2 turn lmY) (MtLassoPen 1) (settings (gpr 1 1)) (fit_mn 2 2 2 (mix 2 turn lmX) (mix 2 turn lmY) 1) /\ accepted (fit_mn 2 2 2 (mix 2 turn lmX) (mix 2 turn lmY) 1)) /\
  same_moments 2 2 lmX lmy 2 (mix 2 turn lmX) (mix1 2 turn lmy) /\ valid_sort xops (dsort xops) /\
  (exists N w, (exists j, (j < 2)%nat /\ w j <> 0) /\ forall m, (N <= m)%nat -> fit_ln 2 2 (mix 2 turn lmX) (mix1 2 turn lmy) 0 1 m = Ret (Ok (xv 2 w))).
Proof.
  exact (conj turn_ok (conj turn_moves (conj (ex_fit_ln _ _ _ _ _ _ (Rle_refl 0)) (conj (ex_fit_ln _ _ _ _ _ _ (Rle_refl 0)) (conj (ex_fit_mn _ _ _ _ _ _ Rlt_0_1) (conj (ex_fit_mn _ _ _ _ _ _ Rlt_0_1)
    (conj (mixed_moments 2 2 2 turn lmX lmy (le_S _ _ (le_n 1)) (le_S _ _ (le_n 1)) turn_ok) (conj xr_sort turn_settles)))))))).
Qed.

(** *** C94: squares of coefficients can be moved from the penalty into the data *)
Theorem C94_ridge_in_the_data srt (VS : valid_sort xops srt) n n' p b X X' y y' k k' s fit fit' : (1 <= n)%nat -> (1 <= n')%nat ->
  single_fit srt n p X y Squared k s fit -> single_fit srt n' p X' y' Squared k' s fit' -> accepted fit -> accepted fit' ->
  0 <= b -> moments_shifted b p n X y n' X' y' -> less_ridge b k k' -> convex1 k -> convex1 k' -> forall m, fit' m = fit m.
Proof. exact (fun Hn Hn' => ridge_moved_fit srt VS n n' p Hn Hn' b X X' y y' k k' s fit fit'). Qed.
Print Assumptions C94_ridge_in_the_data.
(** an elastic net is a Lasso with one further sample per feature *)
Theorem C94_augmented srt (VS : valid_sort xops srt) n p X y a r s fit fit' : (1 <= n)%nat ->
  single_fit srt n p X y Squared (EnetPen a r) s fit ->
  single_fit srt (n + p) p (augmented_design n p (a * (1 - r)) X) (augmented_targets n p y) Squared (LassoPen (a * r)) s fit' ->
  accepted fit -> accepted fit' -> forall m, fit' m = fit m.
Proof. exact (augmented_fit srt VS n p X y a r s fit fit'). Qed.
Print Assumptions C94_augmented.
(** for the same reason: both objectives are the same function of the coefficients *)
Theorem C94_objective n p X y a r w : (1 <= n)%nat -> 0 <= a * (1 - r) ->
  objective (loss1 Squared (n + p) (augmented_targets n p y)) p (augmented_design n p (a * (1 - r)) X) (pen1 (LassoPen (a * r))) w = objective (loss1 Squared n y) p X (pen1 (EnetPen a r)) w.
Proof. exact (augmented_objective n p X y a r w). Qed.
Print Assumptions C94_objective.
(** ridge regression as least squares with four samples *)
Example C94_nonvacuous : (single_fit (dsort xops) 2 2 lmX lmy Squared (EnetPen 1 0) (settings (gpr 1 0)) (fit_e lmX lmy 1 0) /\ accepted (fit_e lmX lmy 1 0)) /\
  (exists f, single_fit (dsort xops) (2 + 2) 2 (augmented_design 2 2 (1 * (1 - 0)) lmX) (augmented_targets 2 2 lmy) Squared (LassoPen (1 * 0)) (settings (gpr 1 0)) f /\ accepted f) /\
  0 <= 1 * (1 - 0) /\ less_ridge (1 * (1 - 0)) (EnetPen 1 0) (LassoPen (1 * 0)) /\ moments_shifted (1 * (1 - 0)) 2 2 lmX lmy (2 + 2) (augmented_design 2 2 (1 * (1 - 0)) lmX) (augmented_targets 2 2 lmy).
Proof.
  exact (conj (ex_fit_e _ _ _ _ Rle_0_1 zero_ratio) (conj aug_fit_ex (conj aug_pos (conj (enet_less_ridge 1 0) (augmented_moments 2 2 _ lmX lmy (le_S _ _ (le_n 1)) aug_pos))))).
Qed.
