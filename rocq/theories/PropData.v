(** Property theorems C13-C17 and C24: datafits and design matrices, exact real arithmetic. *)
From Coq Require Import List ZArith Bool Arith Reals Lra Lia.
From Verif Require Import Ops Arr MUtils MDatasets MDatafits MDatafitsMT XR PBase RSum SpecLin SpecData SpecDatafit PData PDataProps PDataEx.
Import ListNotations.
Open Scope R_scope.

(** *** C13 *)
Theorem C13_quadratic_dense n p X t y d0 : (1 <= n)%nat -> single_target_of n y t ->
  gradient_is_derivative (quad_dense xops) d0 (Dataset (xm n p X) t) n p X (quad_loss n y).
Proof. exact (c13_dense n p X t y d0). Qed.
Print Assumptions C13_quadratic_dense.
Theorem C13_quadratic_sparse n p E c t y d0 : (1 <= n)%nat -> csc_of n p E c -> single_target_of n y t ->
  gradient_is_derivative (quad_sparse xops) d0 (Dataset c t) n p (entry E) (quad_loss n y).
Proof. exact (c13_sparse n p E c t y d0). Qed.
Print Assumptions C13_quadratic_sparse.
Example C13_nonvacuous : csc_of 3 3 exE exC /\ single_target_of 3 (fun i => INR i - 1) (T1 (xv 3 (fun i => INR i - 1))).
Proof. exact (conj (proj1 ex_csc) (proj1 ex_target)). Qed.

(** *** C14 *)
Theorem C14_logistic_dense n p X t y d0 : (1 <= n)%nat -> single_target_of n y t ->
  gradient_is_derivative (log_dense xops) d0 (Dataset (xm n p X) t) n p X (logistic_loss n y).
Proof. exact (c14_dense n p X t y d0). Qed.
Print Assumptions C14_logistic_dense.
Theorem C14_logistic_sparse n p E c t y d0 : (1 <= n)%nat -> csc_of n p E c -> single_target_of n y t ->
  gradient_is_derivative (log_sparse xops) d0 (Dataset c t) n p (entry E) (logistic_loss n y).
Proof. exact (c14_sparse n p E c t y d0). Qed.
Print Assumptions C14_logistic_sparse.
Example C14_nonvacuous : csc_of 3 3 exE exC /\ single_target_of 3 (fun i => INR i - 1) (T2 (xm 3 1 (fun i _ => INR i - 1))).
Proof. exact (conj (proj1 ex_csc) (proj1 (proj2 ex_target))). Qed.

(** *** C15 *)
Theorem C15_multitask_dense n p T X t Y d0 : (1 <= n)%nat -> multi_target_of n T Y t ->
  gradient_is_derivative_mt (qmt_dense xops) d0 (Dataset (xm n p X) t) n p T X (quad_loss_mt n T Y).
Proof. exact (c15_dense n p T X t Y d0). Qed.
Print Assumptions C15_multitask_dense.
Theorem C15_multitask_sparse n p T E c t Y d0 : (1 <= n)%nat -> csc_of n p E c -> multi_target_of n T Y t ->
  gradient_is_derivative_mt (qmt_sparse xops) d0 (Dataset c t) n p T (entry E) (quad_loss_mt n T Y).
Proof. exact (c15_sparse n p T E c t Y d0). Qed.
Print Assumptions C15_multitask_sparse.
Example C15_nonvacuous : csc_of 3 3 exE exC /\ multi_target_of 3 2 (fun i t => INR i - INR t) (T2 (xm 3 2 (fun i t => INR i - INR t))).
Proof. exact (conj (proj1 ex_csc) (proj1 (proj2 (proj2 ex_target)))). Qed.

(** *** C16 *)
Theorem C16_quadratic_dense n p X t y d0 : (1 <= n)%nat -> single_target_of n y t ->
  step_size_bounds eq (quad_dense xops) d0 (Dataset (xm n p X) t) n p X.
Proof. exact (c16_quad_dense n p X t y d0). Qed.
Print Assumptions C16_quadratic_dense.
Theorem C16_quadratic_sparse n p E c t y d0 : (1 <= n)%nat -> csc_of n p E c -> no_repeats p E -> single_target_of n y t ->
  step_size_bounds eq (quad_sparse xops) d0 (Dataset c t) n p (entry E).
Proof. exact (c16_quad_sparse n p E c t y d0). Qed.
Print Assumptions C16_quadratic_sparse.
Theorem C16_logistic_dense n p X t y d0 : (1 <= n)%nat -> single_target_of n y t ->
  (forall i, (i < n)%nat -> Rabs (y i) <= 1) ->
  step_size_bounds Rle (log_dense xops) d0 (Dataset (xm n p X) t) n p X.
Proof. exact (c16_log_dense n p X t y d0). Qed.
Print Assumptions C16_logistic_dense.
Theorem C16_logistic_sparse n p E c t y d0 : (1 <= n)%nat -> csc_of n p E c -> no_repeats p E -> single_target_of n y t ->
  (forall i, (i < n)%nat -> Rabs (y i) <= 1) ->
  step_size_bounds Rle (log_sparse xops) d0 (Dataset c t) n p (entry E).
Proof. exact (c16_log_sparse n p E c t y d0). Qed.
Print Assumptions C16_logistic_sparse.
Theorem C16_multitask_dense n p T X t Y d0 : (1 <= n)%nat -> multi_target_of n T Y t ->
  step_size_bounds_mt eq (qmt_dense xops) d0 (Dataset (xm n p X) t) n p T X.
Proof. exact (c16_mt_dense n p T X t Y d0). Qed.
Print Assumptions C16_multitask_dense.
Theorem C16_multitask_sparse n p T E c t Y d0 : (1 <= n)%nat -> csc_of n p E c -> no_repeats p E -> multi_target_of n T Y t ->
  step_size_bounds_mt eq (qmt_sparse xops) d0 (Dataset c t) n p T (entry E).
Proof. exact (c16_mt_sparse n p T E c t Y d0). Qed.
Print Assumptions C16_multitask_sparse.
Example C16_nonvacuous : csc_of 3 3 exE exC /\ no_repeats 3 exE /\
  (forall i, (i < 3)%nat -> Rabs (INR i - 1) <= 1).
Proof. exact (conj (proj1 ex_csc) (conj (proj1 (proj2 ex_csc)) (proj2 (proj2 (proj2 ex_target))))). Qed.
(** one sample, design 1, target 10: the logistic bound fails *)
Theorem C16_logistic_large_target_refuted :
  ~ step_size_bounds Rle (log_dense xops) (logistic_new xops)
      (Dataset (xm 1 1 (fun _ _ => 1)) (T1 (xv 1 (fun _ => 10)))) 1 1 (fun _ _ => 1).
Proof. exact c16_log_large_target. Qed.
Print Assumptions C16_logistic_large_target_refuted.
(** one column that stores row 0 twice: the quadratic bound fails *)
Theorem C16_repeated_entries_refuted :
  csc_of 1 1 dupE dupC /\
  ~ step_size_bounds Rle (quad_sparse xops) (quadratic_new xops)
      (Dataset dupC (T1 (xv 1 (fun _ => 1)))) 1 1 (entry dupE).
Proof. exact (conj dup_csc c16_duplicates_break). Qed.
Print Assumptions C16_repeated_entries_refuted.

(** *** C17 *)
Theorem C17_quadratic n p E c t y d0 d0' : (1 <= n)%nat -> csc_of n p E c -> no_repeats p E -> single_target_of n y t ->
  datafits_agree (quad_dense xops) d0 (Dataset (xm n p (entry E)) t) (quad_sparse xops) d0' (Dataset c t) n p.
Proof. exact (c17_quad n p E c t y d0 d0'). Qed.
Print Assumptions C17_quadratic.
Theorem C17_logistic n p E c t y d0 d0' : (1 <= n)%nat -> csc_of n p E c -> no_repeats p E -> single_target_of n y t ->
  datafits_agree (log_dense xops) d0 (Dataset (xm n p (entry E)) t) (log_sparse xops) d0' (Dataset c t) n p.
Proof. exact (c17_log n p E c t y d0 d0'). Qed.
Print Assumptions C17_logistic.
Theorem C17_multitask n p T E c t Y d0 d0' : (1 <= n)%nat -> csc_of n p E c -> no_repeats p E -> multi_target_of n T Y t ->
  datafits_agree_mt (qmt_dense xops) d0 (Dataset (xm n p (entry E)) t) (qmt_sparse xops) d0' (Dataset c t) n p T.
Proof. exact (c17_mt n p T E c t Y d0 d0'). Qed.
Print Assumptions C17_multitask.
Theorem C17_model_fits n p E c : csc_of n p E c ->
  (forall z d j, (j < p)%nat ->
     both (dm_update (dense_dm xops) (xm n p (entry E)) (xv n z) (Fin d) j)
          (dm_update (sparse_dm xops) c (xv n z) (Fin d) j)) /\
  (forall w ws, (forall j, In j ws -> (j < p)%nat) ->
     both (dm_extrap (dense_dm xops) (xm n p (entry E)) ws (xv p w) n)
          (dm_extrap (sparse_dm xops) c ws (xv p w) n)) /\
  (forall T Z d j, (j < p)%nat ->
     both (dm_update_mt (dense_dm xops) (xm n p (entry E)) (xm n T Z) (xv T d) j)
          (dm_update_mt (sparse_dm xops) c (xm n T Z) (xv T d) j)) /\
  (forall T W ws, (forall j, In j ws -> (j < p)%nat) ->
     both (dm_extrap_mt (dense_dm xops) (xm n p (entry E)) ws (xm p T W) n T)
          (dm_extrap_mt (sparse_dm xops) c ws (xm p T W) n T)).
Proof. exact (c17_fits n p E c). Qed.
Print Assumptions C17_model_fits.
Theorem C17_alpha_max n p E c y : (1 <= n)%nat -> csc_of n p E c ->
  both (compute_alpha_max xops (xm n p (entry E)) (xv n y)) (compute_alpha_max_sparse xops c (xv n y)).
Proof. exact (c17_alpha_max n p E c y). Qed.
Print Assumptions C17_alpha_max.
Example C17_nonvacuous : csc_of 3 3 exE exC /\ no_repeats 3 exE /\
  entry exE 2 0 = 3 /\ entry exE 1 1 = -2 /\ entry exE 0 2 = 0.
Proof. exact ex_csc. Qed.
Theorem C17_step_sizes_with_repeats_refuted : csc_of 1 1 dupE dupC /\ exists d d',
  df_initialize (quad_dense xops) (quadratic_new xops)
    (Dataset (xm 1 1 (entry dupE)) (T1 (xv 1 (fun _ => 1)))) = Ret d /\
  df_initialize (quad_sparse xops) (quadratic_new xops)
    (Dataset dupC (T1 (xv 1 (fun _ => 1)))) = Ret d' /\
  df_step_size (quad_dense xops) d = [Fin 4] /\ df_step_size (quad_sparse xops) d' = [Fin 2].
Proof. exact (conj dup_csc c17_duplicates). Qed.
Print Assumptions C17_step_sizes_with_repeats_refuted.

(** *** C24 *)
Theorem C24_updates_track_dense n p X us w : (forall u, In u us -> (fst u < p)%nat) ->
  foldM (fun fit u => dm_update (dense_dm xops) (xm n p X) fit (Fin (snd u)) (fst u)) us (xv n (lin p X w))
  = Ret (xv n (lin p X (fold_left bump us w))).
Proof. exact (fun H => updates_track _ _ n p X (dense_ok n p X) us H w). Qed.
Print Assumptions C24_updates_track_dense.
Theorem C24_updates_track_sparse n p E c us w : csc_of n p E c -> (forall u, In u us -> (fst u < p)%nat) ->
  foldM (fun fit u => dm_update (sparse_dm xops) c fit (Fin (snd u)) (fst u)) us (xv n (lin p (entry E) w))
  = Ret (xv n (lin p (entry E) (fold_left bump us w))).
Proof. exact (fun HC H => updates_track _ _ n p _ (sparse_ok n p E c HC) us H w). Qed.
Print Assumptions C24_updates_track_sparse.
Theorem C24_updates_track_dense_mt n p T X us W : (forall u, In u us -> (fst u < p)%nat) ->
  foldM (fun fit u => dm_update_mt (dense_dm xops) (xm n p X) fit (xv T (snd u)) (fst u)) us (xm n T (lin_mt p X W))
  = Ret (xm n T (lin_mt p X (fold_left bump_mt us W))).
Proof. exact (fun H => updates_track_mt _ _ n p X (dense_ok n p X) T us H W). Qed.
Print Assumptions C24_updates_track_dense_mt.
Theorem C24_updates_track_sparse_mt n p T E c us W : csc_of n p E c -> (forall u, In u us -> (fst u < p)%nat) ->
  foldM (fun fit u => dm_update_mt (sparse_dm xops) c fit (xv T (snd u)) (fst u)) us (xm n T (lin_mt p (entry E) W))
  = Ret (xm n T (lin_mt p (entry E) (fold_left bump_mt us W))).
Proof. exact (fun HC H => updates_track_mt _ _ n p _ (sparse_ok n p E c HC) T us H W). Qed.
Print Assumptions C24_updates_track_sparse_mt.
Example C24_updates_nonvacuous : let us := [(0%nat, 2); (2%nat, -1); (0%nat, 1)] in
  (forall u, In u us -> (fst u < 3)%nat) /\ fold_left bump us (fun _ => 0) 0%nat = 3 /\
  fold_left bump us (fun _ => 0) 2%nat = -1.
Proof. exact ex_updates. Qed.
Theorem C24_extrapolated_fit_dense n p X ws w : NoDup ws -> (forall j, In j ws -> (j < p)%nat) ->
  (forall j, (j < p)%nat -> ~ In j ws -> w j = 0) ->
  dm_extrap (dense_dm xops) (xm n p X) ws (xv p w) n = Ret (xv n (lin p X w)).
Proof. exact (extrap_fit _ _ n p X (dense_ok n p X) ws w). Qed.
Print Assumptions C24_extrapolated_fit_dense.
Theorem C24_extrapolated_fit_sparse n p E c ws w : csc_of n p E c -> NoDup ws -> (forall j, In j ws -> (j < p)%nat) ->
  (forall j, (j < p)%nat -> ~ In j ws -> w j = 0) ->
  dm_extrap (sparse_dm xops) c ws (xv p w) n = Ret (xv n (lin p (entry E) w)).
Proof. exact (fun HC => extrap_fit _ _ n p _ (sparse_ok n p E c HC) ws w). Qed.
Print Assumptions C24_extrapolated_fit_sparse.
Theorem C24_extrapolated_fit_dense_mt n p T X ws W : NoDup ws -> (forall j, In j ws -> (j < p)%nat) ->
  (forall j t, (j < p)%nat -> (t < T)%nat -> ~ In j ws -> W j t = 0) ->
  dm_extrap_mt (dense_dm xops) (xm n p X) ws (xm p T W) n T = Ret (xm n T (lin_mt p X W)).
Proof. exact (extrap_fit_mt _ _ n p X (dense_ok n p X) T ws W). Qed.
Print Assumptions C24_extrapolated_fit_dense_mt.
Theorem C24_extrapolated_fit_sparse_mt n p T E c ws W : csc_of n p E c -> NoDup ws -> (forall j, In j ws -> (j < p)%nat) ->
  (forall j t, (j < p)%nat -> (t < T)%nat -> ~ In j ws -> W j t = 0) ->
  dm_extrap_mt (sparse_dm xops) c ws (xm p T W) n T = Ret (xm n T (lin_mt p (entry E) W)).
Proof. exact (fun HC => extrap_fit_mt _ _ n p _ (sparse_ok n p E c HC) T ws W). Qed.
Print Assumptions C24_extrapolated_fit_sparse_mt.
Example C24_extrapolation_nonvacuous :
  NoDup [2%nat; 0%nat] /\ (forall j, In j [2%nat; 0%nat] -> (j < 3)%nat) /\
  (forall j, (j < 3)%nat -> ~ In j [2%nat; 0%nat] -> (if (j =? 1)%nat then 0 else 5) = 0).
Proof. exact ex_support. Qed.
