(** Properties C79-C80: rounding in a coordinate update and in extrapolation, in every IEEE format. *)
From Coq Require Import List ZArith Bool Arith Lia Reals.
From Flocq Require Import Core BinarySingleNaN.
From Verif Require Import Ops Arr MUtils MDatasets MDatafits MPenalties MCd IEEE SpecPen SpecRound SpecSolve SpecDatafit
  PFloat PRoundEx PRoundStep PRoundStepEx PRunsEx PNullEx2.
Import ListNotations.
Local Open Scope R_scope.

(** *** C79: L is the exact curvature of the coordinate, G the exact derivative, e the distance from the exact minimiser *)
Theorem C79_step_error prec emax Hp Hm m : reduces prec emax Hp Hm m -> let o := ieee_ops prec emax Hp Hm m in let u := urd prec in let eta := tiny prec emax in
  forall n p, (Z.of_nat n <= 2 ^ prec)%Z -> (0 < n)%nat -> forall X t, shaped n p X -> target1_wf n t -> forall d0 d, df_initialize (quad_dense o) d0 (Dataset X t) = Ret d ->
  forall a, finite prec emax a -> 0 <= B2R a -> forall w Xw w' Xw' j old new g l, length Xw = n ->
  cd_step o (dense_dm o) (quad_dense o) (l1_penalty o) (Dataset X t) d (L1 a) (w, Xw) j = Ret (w', Xw') ->
  nth_error w j = Some old -> nth_error w' j = Some new -> nth_error (df_step_size (quad_dense o) d) j = Some l -> finite prec emax l ->
  df_gradient_j (quad_dense o) d (Dataset X t) Xw j = Ret g -> finite prec emax (fsub o old (fdiv o g l)) -> finite prec emax (fmul o a (fdiv o (f1 o) l)) ->
  let x := colR prec emax X j in let xw := val prec emax Xw in let y := tgtR prec emax t in
  let G := (dotp x xw - dotp x y) / INR n in let L := dotp x x / INR n in
  let eg := rel u (n + 2) * ((adot x xw + adot x y) / INR n) + 3 * (1 + u) ^ (n + 2) * eta in
  let el := rel u (n + 1) * L + 2 * (1 + u) ^ (n + 1) * eta in
  0 < L -> el <= L / 2 ->
  let e1 := 2 / L * (eg + Rabs G * (el / L)) in
  let e2 := u * Rabs (G / L) + (1 + u) * e1 + eta in
  let e3 := u * Rabs (B2R old - G / L) + (1 + u) * e2 in
  let e4 := 2 * u / L + 2 * el / (L * L) + eta in
  let e5 := u * (B2R a / L) + (1 + u) * (B2R a * e4) + eta in
  exists z, strong_min L (coord_obj y xw x (B2R a) (B2R old)) z /\
    let e := u * Rabs z + (1 + u) * (e3 + e5) in
    Rabs (B2R new - z) <= e /\
    coord_obj y xw x (B2R a) (B2R old) (B2R new) <= coord_obj y xw x (B2R a) (B2R old) (B2R old) + L / 2 * e ^ 2 + 2 * B2R a * e.
Proof. exact (top_step prec emax Hp Hm m). Qed.
Print Assumptions C79_step_error.
(** coefficient 0.5 is replaced by another nonzero coefficient *)
Example C79_nonvacuous : reduces 53 1024 Hprec64 Hmax64 libm64 /\ shaped 3 2 tX /\ target1_wf 3 ty /\ (finite 53 1024 ta2 /\ 0 <= B2R ta2) /\ length tXw = 3%nat /\
  (exists d w' Xw' new g l, df_initialize (quad_dense ops64) (Quad [] []) (Dataset tX ty) = Ret d /\
  cd_step ops64 (dense_dm ops64) (quad_dense ops64) (l1_penalty ops64) (Dataset tX ty) d (L1 ta2) (tw, tXw) 0 = Ret (w', Xw') /\
  nth_error tw 0 = Some (tenth 5) /\ nth_error w' 0 = Some new /\ nth_error (df_step_size (quad_dense ops64) d) 0 = Some l /\ finite 53 1024 l /\
  df_gradient_j (quad_dense ops64) d (Dataset tX ty) tXw 0 = Ret g /\ finite 53 1024 (fsub ops64 (tenth 5) (fdiv ops64 g l)) /\ finite 53 1024 (fmul ops64 ta2 (fdiv ops64 (f1 ops64) l)) /\
  feq ops64 new (f0 ops64) = false /\ feq ops64 new (tenth 5) = false) /\
  let L := dotp (colR 53 1024 tX 0) (colR 53 1024 tX 0) / INR 3 in
  0 < L /\ rel (urd 53) 4 * L + 2 * (1 + urd 53) ^ 4 * tiny 53 1024 <= L / 2.
Proof. exact (conj reduces64 (conj tX_shaped (conj eq_refl (conj ex_ta2 (conj eq_refl (conj ex_step ex_len)))))). Qed.

(** *** C80: the computed objectives are close to the exact ones, and extrapolation cannot raise the exact objective by more *)
Theorem C80_objective_error prec emax Hp Hm m : reduces prec emax Hp Hm m -> let o := ieee_ops prec emax Hp Hm m in let u := urd prec in
  forall (DM : Type) n t (X : DM) d a w Xw v, (Z.of_nat (2 * n) <= 2 ^ prec)%Z -> target1_wf n t -> 0 <= B2R a -> length Xw = n ->
  quad_value o d (Dataset X t) Xw = Ret v -> finite prec emax (fadd o v (pen_value (l1_penalty o) (L1 a) w)) ->
  let O := lasso_obj (tgtR prec emax t) (val prec emax Xw) (B2R a) (val prec emax w) in
  Rabs (B2R (fadd o v (pen_value (l1_penalty o) (L1 a) w)) - O) <= rel u (n + length w + 4) * O + 3 * (1 + u) ^ (n + 2) * tiny prec emax.
Proof. exact (fun RD DM => @obj_err prec emax Hp Hm m RD DM). Qed.
Print Assumptions C80_objective_error.
Theorem C80_extrapolation_dense prec emax Hp Hm m : reduces prec emax Hp Hm m -> let o := ieee_ops prec emax Hp Hm m in let u := urd prec in
  forall n t X d a K ws ep vb LK LK' w Xw w' Xw' v v',
  (Z.of_nat (2 * n) <= 2 ^ prec)%Z -> shaped n (length w) X -> target1_wf n t -> 0 <= B2R a -> length Xw = n ->
  anderson_accel o (dense_dm o) (quad_dense o) (l1_penalty o) (Dataset X t) d (L1 a) LK w Xw ws ep K vb = Ret (w', Xw', LK') ->
  quad_value o d (Dataset X t) Xw = Ret v -> quad_value o d (Dataset X t) Xw' = Ret v' ->
  finite prec emax (fadd o v (pen_value (l1_penalty o) (L1 a) w)) -> finite prec emax (fadd o v' (pen_value (l1_penalty o) (L1 a) w')) ->
  let r := rel u (n + length w + 4) in
  (1 - r) * lasso_obj (tgtR prec emax t) (val prec emax Xw') (B2R a) (val prec emax w') <=
  (1 + r) * lasso_obj (tgtR prec emax t) (val prec emax Xw) (B2R a) (val prec emax w) + 6 * (1 + u) ^ (n + 2) * tiny prec emax.
Proof. exact (fun RD n t X d a K ws ep vb LK LK' w Xw w' Xw' v v' => accel_err_dense prec emax Hp Hm m RD n t X d a K ws ep vb LK LK' w Xw w' Xw' v v'). Qed.
Print Assumptions C80_extrapolation_dense.
Theorem C80_extrapolation_sparse prec emax Hp Hm m : reduces prec emax Hp Hm m -> let o := ieee_ops prec emax Hp Hm m in let u := urd prec in
  forall n t X d a K ws ep vb LK LK' w Xw w' Xw' v v',
  (Z.of_nat (2 * n) <= 2 ^ prec)%Z -> dm_n_features (sparse_dm o) X = Ret (length w) -> target1_wf n t -> 0 <= B2R a -> length Xw = n ->
  anderson_accel o (sparse_dm o) (quad_sparse o) (l1_penalty o) (Dataset X t) d (L1 a) LK w Xw ws ep K vb = Ret (w', Xw', LK') ->
  quad_value o d (Dataset X t) Xw = Ret v -> quad_value o d (Dataset X t) Xw' = Ret v' ->
  finite prec emax (fadd o v (pen_value (l1_penalty o) (L1 a) w)) -> finite prec emax (fadd o v' (pen_value (l1_penalty o) (L1 a) w')) ->
  let r := rel u (n + length w + 4) in
  (1 - r) * lasso_obj (tgtR prec emax t) (val prec emax Xw') (B2R a) (val prec emax w') <=
  (1 + r) * lasso_obj (tgtR prec emax t) (val prec emax Xw) (B2R a) (val prec emax w) + 6 * (1 + u) ^ (n + 2) * tiny prec emax.
Proof. exact (fun RD n t X d a K ws ep vb LK LK' w Xw w' Xw' v v' => accel_err_sparse prec emax Hp Hm m RD n t X d a K ws ep vb LK LK' w Xw w' Xw' v v'). Qed.
Print Assumptions C80_extrapolation_sparse.
(** the extrapolated point is accepted and differs from the current one *)
Example C80_nonvacuous : reduces 53 1024 Hprec64 Hmax64 libm64 /\ target1_wf 3 ty /\ (finite 53 1024 ta2 /\ 0 <= B2R ta2) /\ shaped 3 (length aw) tX /\ length aXw = 3%nat /\
  exists d w' Xw' LK' v v', anderson_accel ops64 (dense_dm ops64) (quad_dense ops64) (l1_penalty ops64) (Dataset tX ty) d (L1 ta2) aLK aw aXw [0; 1]%nat 2 2 false = Ret (w', Xw', LK') /\
  quad_value ops64 d (Dataset tX ty) aXw = Ret v /\ quad_value ops64 d (Dataset tX ty) Xw' = Ret v' /\
  finite 53 1024 (fadd ops64 v (pen_value (l1_penalty ops64) (L1 ta2) aw)) /\ finite 53 1024 (fadd ops64 v' (pen_value (l1_penalty ops64) (L1 ta2) w')) /\ length w' = length aw /\ feq ops64 (nth 0 w' (f0 ops64)) (nth 0 aw (f0 ops64)) = false.
Proof. exact (conj reduces64 (conj eq_refl (conj ex_ta2 (conj tX_shaped (conj eq_refl ex_acc))))). Qed.
