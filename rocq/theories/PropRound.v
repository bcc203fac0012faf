(** Properties C75-C78: rounding errors, in every IEEE format; u is the unit roundoff (2^-53 in double precision). *)
From Coq Require Import List ZArith Bool Arith Lia Reals.
From Flocq Require Import Core BinarySingleNaN.
From Verif Require Import Ops Arr MUtils MDatasets MDatafits MPenalties MCd IEEE SpecPen SpecRound SpecSolve SpecDatafit
  PFloat PRoundPen PRoundFit PRoundTop PRoundEx PRunsEx PNullEx2.
Import ListNotations.
Local Open Scope R_scope.

(** *** C75 *)
Theorem C75_soft_thresholding_correctly_rounded prec emax Hp Hm m (x t : binary_float prec emax) : is_finite x = true -> is_finite t = true -> 0 <= B2R t ->
  exists z, strong_min 1 (prox_obj (abs_pen (B2R t)) (B2R x)) z /\ nearest prec emax (soft_thresholding (ieee_ops prec emax Hp Hm m) x t) z.
Proof. exact (soft_min prec emax Hp Hm m x t). Qed.
Print Assumptions C75_soft_thresholding_correctly_rounded.
Theorem C75_exact_zeros prec emax Hp Hm m (x t : binary_float prec emax) : is_finite x = true -> is_finite t = true -> 0 <= B2R t ->
  (B2R (soft_thresholding (ieee_ops prec emax Hp Hm m) x t) = 0 <-> Rabs (B2R x) <= B2R t).
Proof. exact (soft_zero prec emax Hp Hm m x t). Qed.
Print Assumptions C75_exact_zeros.
Theorem C75_shrinks_keeps_sign_monotone prec emax Hp Hm m (x y t : binary_float prec emax) : is_finite x = true -> is_finite y = true -> is_finite t = true -> 0 <= B2R t ->
  let r z := B2R (soft_thresholding (ieee_ops prec emax Hp Hm m) z t) in
  Rabs (r x) <= Rabs (B2R x) /\ 0 <= r x * B2R x /\ (B2R x <= B2R y -> r x <= r y).
Proof. exact (soft_shape prec emax Hp Hm m x y t). Qed.
Print Assumptions C75_shrinks_keeps_sign_monotone.
Theorem C75_l1_prox_error prec emax Hp Hm m (v s a : binary_float prec emax) :
  let o := ieee_ops prec emax Hp Hm m in let u := urd prec in
  is_finite v = true -> is_finite (fmul o a s) = true -> 0 <= B2R s -> 0 <= B2R a ->
  exists z, strong_min 1 (prox_obj (fun y => B2R s * abs_pen (B2R a) y) (B2R v)) z /\
    is_finite (pen_prox (l1_penalty o) (L1 a) v s) = true /\
    Rabs (B2R (pen_prox (l1_penalty o) (L1 a) v s) - z) <= u * Rabs z + (1 + u) * (u * (B2R a * B2R s) + tiny prec emax).
Proof. exact (l1_err prec emax Hp Hm m v s a). Qed.
Print Assumptions C75_l1_prox_error.
(** the exact operator is nonexpansive; the rounded one is not *)
Theorem C75_nonexpansive_refuted : exists x y t : f64, is_finite x = true /\ is_finite y = true /\ is_finite t = true /\ 0 <= B2R t /\
  Rabs (B2R x - B2R y) < Rabs (B2R (soft_thresholding ops64 x t) - B2R (soft_thresholding ops64 y t)).
Proof. exact nonexp. Qed.
Print Assumptions C75_nonexpansive_refuted.
Example C75_nonvacuous : is_finite ne_x = true /\ is_finite ne_t = true /\ 0 <= B2R ne_t /\ B2R (soft_thresholding ops64 ne_x ne_t) = 1 /\
  is_finite (fmul ops64 ne_t ne_t) = true.
Proof. exact ex_soft. Qed.

(** *** C76 *)
Theorem C76_gradient_error prec emax Hp Hm m : reduces prec emax Hp Hm m -> let o := ieee_ops prec emax Hp Hm m in let u := urd prec in
  let c := colR prec emax in let v := val prec emax in let y := tgtR prec emax in
  forall n p X t d0 d Xw j g, (Z.of_nat n <= 2 ^ prec)%Z -> shaped n p X -> target1_wf n t ->
  df_initialize (quad_dense o) d0 (Dataset X t) = Ret d -> df_gradient_j (quad_dense o) d (Dataset X t) Xw j = Ret g -> finite prec emax g ->
  Rabs (B2R g - (dotp (c X j) (v Xw) - dotp (c X j) (y t)) / INR n) <=
    rel u (n + 2) * ((adot (c X j) (v Xw) + adot (c X j) (y t)) / INR n) + 3 * (1 + u) ^ (n + 2) * tiny prec emax.
Proof. exact (top_grad prec emax Hp Hm m). Qed.
Print Assumptions C76_gradient_error.
Theorem C76_step_constant_error prec emax Hp Hm m : reduces prec emax Hp Hm m -> let o := ieee_ops prec emax Hp Hm m in let u := urd prec in let c := colR prec emax in
  forall n p X t d0 d j L, (Z.of_nat n <= 2 ^ prec)%Z -> shaped n p X -> target1_wf n t ->
  df_initialize (quad_dense o) d0 (Dataset X t) = Ret d -> nth_error (df_step_size (quad_dense o) d) j = Some L -> finite prec emax L ->
  Rabs (B2R L - dotp (c X j) (c X j) / INR n) <= rel u (n + 1) * (dotp (c X j) (c X j) / INR n) + 2 * (1 + u) ^ (n + 1) * tiny prec emax.
Proof. exact (top_lip prec emax Hp Hm m). Qed.
Print Assumptions C76_step_constant_error.
Theorem C76_loss_error prec emax Hp Hm m : reduces prec emax Hp Hm m -> let o := ieee_ops prec emax Hp Hm m in let u := urd prec in
  forall (DM : Type) n t (X : DM) d Xw v, (Z.of_nat (2 * n) <= 2 ^ prec)%Z -> target1_wf n t -> length Xw = n -> quad_value o d (Dataset X t) Xw = Ret v -> finite prec emax v ->
  let r := vminus (tgtR prec emax t) (val prec emax Xw) in
  Rabs (B2R v - dotp r r / (2 * INR n)) <= rel u (n + 3) * (dotp r r / (2 * INR n)) + 2 * (1 + u) ^ (n + 1) * tiny prec emax.
Proof. exact (fun RD DM => @top_value prec emax Hp Hm m RD DM). Qed.
Print Assumptions C76_loss_error.
Theorem C76_l1_value_error prec emax Hp Hm m : reduces prec emax Hp Hm m -> let o := ieee_ops prec emax Hp Hm m in let u := urd prec in
  forall a w v, pen_value (l1_penalty o) (L1 a) w = v -> finite prec emax v ->
  let s := B2R a * rsum (map Rabs (val prec emax w)) in
  Rabs (B2R v - s) <= rel u (length w) * Rabs s + tiny prec emax.
Proof. exact (l1_value_err prec emax Hp Hm m). Qed.
Print Assumptions C76_l1_value_error.
Theorem C76_alpha_max_error prec emax Hp Hm m : reduces prec emax Hp Hm m -> let o := ieee_ops prec emax Hp Hm m in let u := urd prec in
  let c := colR prec emax in let v := val prec emax in
  forall n p X y b am AM A, (Z.of_nat n <= 2 ^ prec)%Z -> shaped n p X -> mtv o X y = Ret b -> Forall (finite prec emax) b -> compute_alpha_max o X y = Ret am -> finite prec emax am ->
  is_largest p (fun j => Rabs (dotp (c X j) (v y)) / INR n) AM -> is_largest p (fun j => adot (c X j) (v y)) A ->
  Rabs (B2R am - AM) <= rel u (n + 1) * (A / INR n) + 2 * (1 + u) ^ (n + 1) * tiny prec emax.
Proof. exact (top_alpha prec emax Hp Hm m). Qed.
Print Assumptions C76_alpha_max_error.
(** three observations of two features with entries such as 0.1 and 0.7 *)
Example C76_nonvacuous : reduces 53 1024 Hprec64 Hmax64 libm64 /\ shaped 3 2 tX /\ target1_wf 3 ty /\
  (exists d g L v, df_initialize (quad_dense ops64) (Quad [] []) (Dataset tX ty) = Ret d /\
    df_gradient_j (quad_dense ops64) d (Dataset tX ty) tXw 1 = Ret g /\ finite 53 1024 g /\ feq ops64 g (f0 ops64) = false /\
    nth_error (df_step_size (quad_dense ops64) d) 1 = Some L /\ finite 53 1024 L /\ quad_value ops64 d (Dataset tX ty) tXw = Ret v /\ finite 53 1024 v /\ feq ops64 v (f0 ops64) = false) /\
  (finite 53 1024 (l1_value ops64 (L1 ta) tw) /\ feq ops64 (l1_value ops64 (L1 ta) tw) (f0 ops64) = false) /\
  exists b am AM A, mtv ops64 tX tyv = Ret b /\ Forall (finite 53 1024) b /\ compute_alpha_max ops64 tX tyv = Ret am /\ finite 53 1024 am /\ feq ops64 am (f0 ops64) = false /\
    is_largest 2 (fun j => Rabs (dotp (colR 53 1024 tX j) (val 53 1024 tyv)) / INR 3) AM /\ is_largest 2 (fun j => adot (colR 53 1024 tX j) (val 53 1024 tyv)) A.
Proof. exact (conj reduces64 (conj tX_shaped (conj eq_refl (conj ex_fit (conj ex_pen ex_max))))). Qed.

(** *** C77: one pass of coordinate descent over the coordinates [ws] *)
Theorem C77_fit_tracks_coefficients prec emax Hp Hm m (D P : Type) : let o := ieee_ops prec emax Hp Hm m in let u := urd prec in
  let at_ := atR prec emax in
  forall (df : Datafit (binary_float prec emax) (mat (binary_float prec emax)) D) (pen : Penalty (binary_float prec emax) P) n p X t d q ws w Xw w' Xw' i,
  shaped n p X -> NoDup ws -> length Xw = n -> foldM (cd_step o (dense_dm o) df pen (Dataset X t) d q) ws (w, Xw) = Ret (w', Xw') ->
  (i < n)%nat -> finite prec emax (nth i Xw' (f0 o)) ->
  let mv j := (at_ w' j - at_ w j) * entR prec emax X i j in
  Rabs (at_ Xw' i - (at_ Xw i + rsum (map mv ws))) <=
    rel u (length ws) * Rabs (at_ Xw i) + rel u (length ws + 2) * rsum (map (fun j => Rabs (mv j)) ws) + INR (length ws) * (1 + u) ^ length ws * tiny prec emax.
Proof. exact (@top_sweep prec emax Hp Hm m D P). Qed.
Print Assumptions C77_fit_tracks_coefficients.
(** both coefficients and the second fitted value move *)
Example C77_nonvacuous : shaped 3 2 tX /\ NoDup [0; 1]%nat /\ length tXw = 3%nat /\
  exists d w' Xw', foldM (cd_step ops64 (dense_dm ops64) (quad_dense ops64) (l1_penalty ops64) (Dataset tX ty) d (L1 (tenth 0))) [0; 1]%nat (tw, tXw) = Ret (w', Xw') /\
    finite 53 1024 (nth 1 Xw' (f0 ops64)) /\ feq ops64 (nth 1 Xw' (f0 ops64)) (nth 1 tXw (f0 ops64)) = false.
Proof. exact (conj tX_shaped (conj ex_nodup (conj eq_refl ex_sweep))). Qed.

(** *** C78 *)
Theorem C78_score_error prec emax Hp Hm m : reduces prec emax Hp Hm m -> let o := ieee_ops prec emax Hp Hm m in let u := urd prec in
  let c := colR prec emax in let v := val prec emax in let y := tgtR prec emax in
  forall n p X t d0 d a w Xw ws kkt mx k j wj g sc, (Z.of_nat n <= 2 ^ prec)%Z -> shaped n p X -> target1_wf n t ->
  df_initialize (quad_dense o) d0 (Dataset X t) = Ret d -> finite prec emax a -> 0 <= B2R a ->
  opt_cond_violation (quad_dense o) (l1_penalty o) (Dataset X t) w Xw ws d (L1 a) = Ret (kkt, mx) ->
  nth_error ws k = Some j -> nth_error w j = Some wj -> finite prec emax wj ->
  df_gradient_j (quad_dense o) d (Dataset X t) Xw j = Ret g -> finite prec emax g -> nth_error kkt k = Some sc -> finite prec emax sc ->
  exists dist, is_dist (subgrad (abs_pen (B2R a)) (B2R wj)) (- ((dotp (c X j) (v Xw) - dotp (c X j) (y t)) / INR n)) dist /\
    Rabs (B2R sc - dist) <= u * dist + (1 + u) * (rel u (n + 2) * ((adot (c X j) (v Xw) + adot (c X j) (y t)) / INR n) + 3 * (1 + u) ^ (n + 2) * tiny prec emax).
Proof. exact (top_score prec emax Hp Hm m). Qed.
Print Assumptions C78_score_error.
Theorem C78_passed_test_bounds_true_violation prec emax Hp Hm m : reduces prec emax Hp Hm m -> let o := ieee_ops prec emax Hp Hm m in let u := urd prec in
  let c := colR prec emax in let v := val prec emax in let y := tgtR prec emax in
  forall n p X t d0 d a w Xw ws kkt mx tol dl k j wj g sc, (Z.of_nat n <= 2 ^ prec)%Z -> shaped n p X -> target1_wf n t ->
  df_initialize (quad_dense o) d0 (Dataset X t) = Ret d -> finite prec emax a -> 0 <= B2R a ->
  opt_cond_violation (quad_dense o) (l1_penalty o) (Dataset X t) w Xw ws d (L1 a) = Ret (kkt, mx) -> finite prec emax tol -> fle o mx tol = true ->
  nth_error ws k = Some j -> nth_error w j = Some wj -> finite prec emax wj ->
  df_gradient_j (quad_dense o) d (Dataset X t) Xw j = Ret g -> finite prec emax g -> nth_error kkt k = Some sc -> finite prec emax sc ->
  (0 < n)%nat -> length Xw = n -> (forall i, (i < n)%nat -> Rabs (atR prec emax Xw i - nth i (fitR prec emax X w) 0) <= dl) ->
  exists dist, is_dist (subgrad (abs_pen (B2R a)) (B2R wj)) (- ((dotp (c X j) (fitR prec emax X w) - dotp (c X j) (y t)) / INR n)) dist /\
    (1 - u) * dist <= B2R tol + (1 + u) * (rel u (n + 2) * ((adot (c X j) (v Xw) + adot (c X j) (y t)) / INR n) + 3 * (1 + u) ^ (n + 2) * tiny prec emax + dl * (rsum (map Rabs (c X j)) / INR n)).
Proof. exact (top_stop prec emax Hp Hm m). Qed.
Print Assumptions C78_passed_test_bounds_true_violation.
Example C78_nonvacuous : reduces 53 1024 Hprec64 Hmax64 libm64 /\ shaped 3 2 tX /\ target1_wf 3 ty /\ (finite 53 1024 ta /\ 0 <= B2R ta /\ finite 53 1024 (f1 ops64)) /\ length tXw = 3%nat /\
  exists d kkt mx g sc dl wj, df_initialize (quad_dense ops64) (Quad [] []) (Dataset tX ty) = Ret d /\
  opt_cond_violation (quad_dense ops64) (l1_penalty ops64) (Dataset tX ty) tw tXw [0; 1]%nat d (L1 ta) = Ret (kkt, mx) /\ fle ops64 mx (f1 ops64) = true /\
  nth_error tw 0 = Some wj /\ finite 53 1024 wj /\ feq ops64 wj (f0 ops64) = false /\
  df_gradient_j (quad_dense ops64) d (Dataset tX ty) tXw 0 = Ret g /\ finite 53 1024 g /\ nth_error kkt 0 = Some sc /\ finite 53 1024 sc /\ feq ops64 sc (f0 ops64) = false /\
  (forall i, (i < 3)%nat -> Rabs (atR 53 1024 tXw i - nth i (fitR 53 1024 tX tw) 0) <= dl).
Proof. exact (conj reduces64 (conj tX_shaped (conj eq_refl (conj ex_ta (conj eq_refl ex_kkt))))). Qed.
