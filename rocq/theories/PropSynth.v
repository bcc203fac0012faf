(** Property theorems C63 to C67: the Python helpers [compute_alpha_max] and
    [make_correlated_data], and the data and comparisons of the Rust test helpers.
    Random draws are inputs; [finite_draws] and [fair_choice] say that the Gaussian draws are
    finite and that [rng.choice] returns as many distinct indices in range as requested. *)
From Coq Require Import List ZArith Bool Arith Lia Lra Reals.
From Verif Require Import Ops Arr MUtils MDatasets MPython MPyUtils MTestHelpers XR PBase RSum SpecLin SpecData SpecDatafit SpecSynth PSynth PSynth2 PSynthEx PSynth3.
Import ListNotations.
Open Scope R_scope.

(** *** C63: the Python [compute_alpha_max] against the Rust one *)
Theorem C63_same_level n p X y : (1 <= n)%nat -> (1 <= p)%nat ->
  exists m, is_largest p (fun j => Rabs (Sum n (fun i => X i j * y i))) m /\
    py_compute_alpha_max xops (xm n p X) (T1 (xv n y)) = PyRet (Fin (m / INR n)) /\
    compute_alpha_max xops (xm n p X) (xv n y) = Ret (Fin (m / INR n)).
Proof. exact (alpha_agree n p X y). Qed.
Print Assumptions C63_same_level.
Theorem C63_same_level_multitask n p T X Y : (1 <= n)%nat -> (1 <= p)%nat ->
  exists m, is_largest p (fun j => sqrt (Sum T (fun t => (Sum n (fun i => X i j * Y i t)) ^ 2))) m /\
    py_compute_alpha_max xops (xm n p X) (T2 (xm n T Y)) = PyRet (Fin (m / INR n)) /\
    compute_alpha_max_mtl xops (xm n p X) (xm n T Y) = Ret (Fin (m / INR n)).
Proof. exact (alpha_agree_mt n p T X Y). Qed.
Print Assumptions C63_same_level_multitask.
Theorem C63_column_targets n p X y : (1 <= n)%nat -> (1 <= p)%nat ->
  py_compute_alpha_max xops (xm n p X) (T2 (xm n 1 (fun i _ => y i))) = py_compute_alpha_max xops (xm n p X) (T1 (xv n y)).
Proof. exact (py_alpha_column n p X y). Qed.
Print Assumptions C63_column_targets.
(** a NaN in a column: numpy reports NaN, Rust skips the column *)
Theorem C63_nan_column n p j X c y : (1 <= n)%nat -> (j < p)%nat -> (exists i, (i < n)%nat /\ c i = NaN) ->
  let M := tabm n p (fun i k => if (k =? j)%nat then c i else Fin (X i k)) in
  py_compute_alpha_max xops M (T1 (xv n y)) = PyRet NaN /\
  exists m, is_largest p (fun k => if (k =? j)%nat then 0 else Rabs (Sum n (fun i => X i k * y i))) m /\
    compute_alpha_max xops M (xv n y) = Ret (Fin (m / INR n)).
Proof. exact (fun Hn Hj Hc => alpha_nan n p j X c y Hn Hj Hc). Qed.
Print Assumptions C63_nan_column.
Theorem C63_no_features n y : (1 <= n)%nat ->
  py_compute_alpha_max xops (xm n 0 (fun _ _ => 0)) (T1 (xv n y)) = PyRaise ValueErr /\
  compute_alpha_max xops (xm n 0 (fun _ _ => 0)) (xv n y) = Ret (Fin 0).
Proof. exact (alpha_no_features n y). Qed.
Print Assumptions C63_no_features.
(** hence the two do not agree on all arrays *)
Theorem C63_always_the_same_refuted : exists X y a, py_compute_alpha_max xops X (T1 y) = PyRet NaN /\ compute_alpha_max xops X y = Ret (Fin a).
Proof. exact alpha_nan_ex. Qed.
Print Assumptions C63_always_the_same_refuted.
Example C63_nonvacuous : compute_alpha_max xops (Mat 2 1 [[Fin 1]; [Fin 2]]) [Fin 3; Fin 4] = Ret (Fin (11/2)) /\
  py_compute_alpha_max xops (Mat 2 1 [[Fin 1]; [Fin 2]]) (T1 [Fin 3; Fin 4]) = PyRet (Fin (11/2)).
Proof. exact alpha_ex. Qed.

(** *** C64: correlation structure of [make_correlated_data] *)
(** each feature is a fixed combination [C j] of independent standard Gaussian draws [G l]; the inner
    product of two combinations, which is the expected product of the features, is [corr ^ |j - k|] *)
Theorem C64_toeplitz corr p : 0 <= corr < 1 -> (1 <= p)%nat ->
  exists C : rmat, (forall j l, (j < l)%nat -> C j l = 0) /\
    (forall j k, (j < p)%nat -> (k < p)%nat -> Sum p (fun l => C j l * C k l) = corr ^ distance j k) /\
    forall n T snr density w d G V N X Y W, finite_draws d G V N ->
      py_make_correlated_data xops xint n p T (Fin corr) snr density w d = PyRet (X, Y, W) ->
      X = xm n p (fun i j => Sum p (fun l => C j l * G l i)).
Proof. exact (toeplitz corr p). Qed.
Print Assumptions C64_toeplitz.
Theorem C64_ranges {F} (o : FOps F) int n p T corr snr density w d :
  fle o (f0 o) corr && flt o corr (f1 o) = false \/ flt o (f0 o) density && fle o density (f1 o) = false ->
  py_make_correlated_data o int n p T corr snr density w d = PyRaise ValueErr.
Proof. exact (out_of_range o int n p T corr snr density w d). Qed.
Print Assumptions C64_ranges.
Example C64_nonvacuous : finite_draws dex dG dV dN /\ exists Y, py_make_correlated_data xops xint 1 2 1 (Fin (3/5)) (Fin 2) (Fin 1) None dex =
  PyRet (Mat 1 2 [[Fin 1; Fin (11/5)]], T1 [Fin Y], T1 [Fin 5; Fin 5]) /\ Y = 24.
Proof. exact (conj dex_finite make_ex). Qed.

(** *** C65: targets, noise and coefficients of [make_correlated_data] *)
Theorem C65_signal_to_noise n p T corr snr density d G V N i0 t0 : 0 <= corr < 1 -> 0 < density <= 1 -> (1 <= p)%nat -> snr <> 0 ->
  finite_draws d G V N -> fair_choice d -> (i0 < n)%nat -> (t0 < T)%nat -> N i0 t0 <> 0 ->
  exists X Y W E S tY tW, py_make_correlated_data xops xint n p T (Fin corr) (Fin snr) (Fin density) None d = PyRet (xm n p X, tY, tW) /\
    returned n T Y tY /\ returned p T W tW /\
    (forall i t, Y i t = lin_mt p X W i t + E i t) /\ Rabs snr * frob n T E = frob n T (lin_mt p X W) /\
    NoDup S /\ (forall j, In j S -> (j < p)%nat) /\ INR (length S) <= density * INR p < INR (length S) + 1 /\
    (forall j, ~ In j S -> forall t, W j t = 0) /\ (forall k, (k < length S)%nat -> forall t, W (nth k S 0%nat) t = V k t).
Proof. exact (snr_simulated n p T corr snr density d G V N i0 t0). Qed.
Print Assumptions C65_signal_to_noise.
Theorem C65_signal_to_noise_given n p T corr snr density d G V N W i0 t0 : 0 <= corr < 1 -> 0 < density <= 1 -> (1 <= p)%nat -> snr <> 0 ->
  finite_draws d G V N -> (i0 < n)%nat -> (t0 < T)%nat -> N i0 t0 <> 0 ->
  exists X Y E tY tW, py_make_correlated_data xops xint n p T (Fin corr) (Fin snr) (Fin density) (Some (T2 (xm p T W))) d = PyRet (xm n p X, tY, tW) /\
    returned n T Y tY /\ returned p T W tW /\
    (forall i t, Y i t = lin_mt p X W i t + E i t) /\ Rabs snr * frob n T E = frob n T (lin_mt p X W).
Proof. exact (snr_given n p T corr snr density d G V N W i0 t0). Qed.
Print Assumptions C65_signal_to_noise_given.
Theorem C65_no_noise n p T corr density d G V N W : 0 <= corr < 1 -> 0 < density <= 1 -> (1 <= p)%nat -> finite_draws d G V N ->
  exists X tY tW, py_make_correlated_data xops xint n p T (Fin corr) PInf (Fin density) (Some (T2 (xm p T W))) d = PyRet (xm n p X, tY, tW) /\
    returned n T (lin_mt p X W) tY /\ returned p T W tW.
Proof. exact (noise_free n p T corr density d G V N W). Qed.
Print Assumptions C65_no_noise.
(** a density below one feature: coefficients, targets and noise are all zero *)
Theorem C65_low_density n p T corr snr density d G V N i0 t0 : 0 <= corr < 1 -> 0 < density <= 1 -> (1 <= p)%nat -> density * INR p < 1 -> snr <> 0 ->
  finite_draws d G V N -> fair_choice d -> (i0 < n)%nat -> (t0 < T)%nat -> N i0 t0 <> 0 ->
  exists X tY tW, py_make_correlated_data xops xint n p T (Fin corr) (Fin snr) (Fin density) None d = PyRet (xm n p X, tY, tW) /\
    returned n T (fun _ _ => 0) tY /\ returned p T (fun _ _ => 0) tW.
Proof. exact (sparse_to_nothing n p T corr snr density d G V N i0 t0). Qed.
Print Assumptions C65_low_density.
(** coefficients passed in the documented shape [(n_features,)] are refused whenever noise is wanted *)
Theorem C65_documented_coefficients_refused n p T corr snr density w d G V N : 0 <= corr < 1 -> 0 < density <= 1 -> (1 <= p)%nat -> finite_draws d G V N ->
  py_make_correlated_data xops xint n p T (Fin corr) (Fin snr) (Fin density) (Some (T1 (xv p w))) d = PyRaise ValueErr.
Proof. exact (documented_shape n p T corr snr density w d G V N). Qed.
Print Assumptions C65_documented_coefficients_refused.
(** coefficients for [k] tasks and another [n_tasks]: refused, except that with [n_tasks = 1] (the default) all tasks receive the same
    noise, which is too large by the factor [sqrt k], and targets and coefficients come back as flat arrays of [n * k] and [p * k] values *)
Theorem C65_other_number_of_tasks n p k T corr snr density d G V N W : 0 <= corr < 1 -> 0 < density <= 1 -> (1 <= p)%nat -> snr <> 0 -> finite_draws d G V N -> k <> T ->
  (T <> 1%nat -> py_make_correlated_data xops xint n p T (Fin corr) (Fin snr) (Fin density) (Some (T2 (xm p k W))) d = PyRaise ValueErr) /\
  (T = 1%nat -> frob n 1 N <> 0 ->
   exists X E ly lw, py_make_correlated_data xops xint n p T (Fin corr) (Fin snr) (Fin density) (Some (T2 (xm p k W))) d = PyRet (xm n p X, T1 ly, T1 lw) /\
     flattened n k (fun i t => lin_mt p X W i t + E i) ly /\ flattened p k W lw /\
     Rabs snr * frob n 1 (fun i _ => E i) = frob n k (lin_mt p X W)).
Proof. exact (other_tasks n p k T corr snr density d G V N W). Qed.
Print Assumptions C65_other_number_of_tasks.
Example C65_nonvacuous : frob 1 1 dN <> 0 /\ finite_draws dex dG dV dN /\ fair_choice dex /\ dN 0%nat 0%nat <> 0 /\ (1/3) * INR 2 < 1 /\
  exists Y, py_make_correlated_data xops xint 1 2 1 (Fin (3/5)) (Fin 2) (Fin 1) None dex =
  PyRet (Mat 1 2 [[Fin 1; Fin (11/5)]], T1 [Fin Y], T1 [Fin 5; Fin 5]) /\ Y = 24.
Proof. exact (conj other_ex (conj dex_finite (conj dex_fair (conj (not_eq_sym (Rlt_not_eq 0 3 (IZR_lt 0 3 eq_refl))) (conj low_ex make_ex))))). Qed.

(** *** C66: the synthetic data of the Rust tests, examples and benchmarks *)
(** [g] is the sequence drawn after seeding.  The "noise" is the first column of the matrix, so that
    the targets are an exact combination of the columns *)
Theorem C66_targets_without_noise g n p : (1 <= p)%nat ->
  exists X, generate_random_data xops (fun k => Fin (g k)) n p =
    Ret (xm n p X, xv n (lin p X (fun j => g j + if (j =? 0)%nat then 1 else 0))) /\
  (forall i j, (i < n)%nat -> (j < p)%nat -> X i j = g (j * n + i)%nat).
Proof. exact (generated g n p). Qed.
Print Assumptions C66_targets_without_noise.
Theorem C66_perfect_fit g n p : (1 <= n)%nat -> (1 <= p)%nat ->
  exists X y w, generate_random_data xops (fun k => Fin (g k)) n p = Ret (xm n p X, xv n y) /\ quad_loss n y (lin p X w) = 0.
Proof. exact (generated_fits g n p). Qed.
Print Assumptions C66_perfect_fit.
(** several tasks: design, coefficients and noise repeat the same values *)
Theorem C66_multitask_data g n p T :
  exists X W E, generate_random_data_mtl xops (fun k => Fin (g k)) n p T =
    Ret (xm n p X, xm n T (fun i t => lin_mt p X W i t + E i t)) /\
  (forall i j, (i < n)%nat -> (j < p)%nat -> X i j = g (j * n + i)%nat) /\
  (forall j t, (j < p)%nat -> (t < T)%nat -> W j t = g (j * T + t)%nat) /\
  (forall i t, (i < n)%nat -> (t < T)%nat -> E i t = g (i * T + t)%nat).
Proof. exact (generated_mtl g n p T). Qed.
Print Assumptions C66_multitask_data.
Example C66_nonvacuous : generate_random_data xops (fun k => Fin (INR (S k))) 2 1 = Ret (Mat 2 1 [[Fin 1]; [Fin 2]], [Fin 2; Fin 4]).
Proof. exact generated_ex. Qed.

(** *** C67: the comparisons of the Rust tests and examples *)
Theorem C67_all_close n x y delta : assert_array_all_close xops (xv n x) (xv n y) (Fin delta) = Passed <-> forall i, (i < n)%nat -> Rabs (x i - y i) <= delta.
Proof. exact (all_close_fin n x y delta). Qed.
Print Assumptions C67_all_close.
Theorem C67_all_close_2d r c x y delta : assert_array2d_all_close xops (xm r c x) (xm r c y) (Fin delta) = Passed <->
  forall i j, (i < r)%nat -> (j < c)%nat -> Rabs (x i j - y i j) <= delta.
Proof. exact (all_close2_fin r c x y delta). Qed.
Print Assumptions C67_all_close_2d.
(** an infinite value or NaN on either side is never accepted, not even beside itself; nor are
    arrays of different lengths *)
Theorem C67_special_values x y delta i : (i < length x)%nat -> (forall a, nth i x NaN <> Fin a) \/ (forall a, nth i y NaN <> Fin a) ->
  assert_array_all_close xops x y (Fin delta) = Failed.
Proof. exact (all_close_special x y delta i). Qed.
Print Assumptions C67_special_values.
Theorem C67_lengths {F} (o : FOps F) x y delta : length x <> length y -> assert_array_all_close o x y delta = Failed.
Proof. exact (all_close_lengths o x y delta). Qed.
Print Assumptions C67_lengths.
Example C67_nonvacuous : assert_array_all_close xops [Fin 1; Fin 2] [Fin 1; Fin (5/2)] (Fin 1) = Passed /\
  assert_array_all_close xops [Fin 1; Fin 2] [Fin 1; Fin (5/2)] (Fin (1/4)) = Failed /\
  assert_array_all_close xops [PInf] [PInf] (Fin 1) = Failed.
Proof. exact close_ex. Qed.
