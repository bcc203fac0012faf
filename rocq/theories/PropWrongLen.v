(** Property C95: which wrong-length model fits the datafit methods accept in a direct call, and what they return then. *)
From Coq Require Import List ZArith Bool Arith Reals.
From Verif Require Import Ops Arr XR RSum SpecLin SpecSolve SpecData SpecShape MUtils MDatasets MDatafits MDatafitsMT PWrongLen PWrongLenEx.
Import ListNotations.
Local Open Scope nat_scope.

(** *** C95 *)
(** squared loss: the lengths must agree, unless one of them is one: that array is repeated *)
Theorem C95_squared_loss (F : Type) (o : FOps F) (DM : Type) d (X : DM) t y Xw : single_target (f0 o) t = Ret y ->
  (length y = length Xw \/ length y = 1 \/ length Xw = 1 -> exists v, quad_value o d (Dataset X t) Xw = Ret v) /\
  (length y <> length Xw -> length y <> 1 -> length Xw <> 1 -> quad_value o d (Dataset X t) Xw = Panic PShape) /\
  (forall x, quad_value o d (Dataset X t) [x] = quad_value o d (Dataset X t) (repeat x (length y))).
Proof. exact (squared_loss o d X t y Xw). Qed.
Print Assumptions C95_squared_loss.
(** with one sample and a longer fit, the loss is the sum over the fit, not the mean *)
Theorem C95_one_sample_sums (DM : Type) m (X : DM) a d z :
  quad_value xops d (Dataset X (T1 [Fin a])) (xv m z) = Ret (Fin (Sum m (fun i => (a - z i) * (a - z i)) / 2)%R).
Proof. exact (single_sample_loss m X a d z). Qed.
Print Assumptions C95_one_sample_sums.
Theorem C95_squared_loss_multitask (F : Type) (o : FOps F) (DM : Type) d (X : DM) t n T XW : target_wf n T t ->
  (repeatable n (mnr XW) /\ repeatable T (mnc XW) -> exists v, qmt_value o d (Dataset X t) XW = Ret v) /\
  (~ (repeatable n (mnr XW) /\ repeatable T (mnc XW)) -> qmt_value o d (Dataset X t) XW = Panic PShape).
Proof. exact (squared_loss_mt o d X t n T XW). Qed.
Print Assumptions C95_squared_loss_multitask.
(** the multi-task loss of an accepted fit: the entries of an axis of length one stand for all places; the divisor stays the number of samples *)
Theorem C95_repeated_loss_multitask (DM : Type) n T r c (X : DM) t Y d Z : 1 <= n -> 1 <= T -> 1 <= r -> 1 <= c -> multi_target_of n T Y t -> repeatable n r -> repeatable T c ->
  qmt_value xops d (Dataset X t) (xm r c Z) =
  Ret (Fin (Sum (Nat.max n r) (fun i => Sum (Nat.max T c) (fun k => (Y (repeated n i) (repeated T k) - Z (repeated r i) (repeated c k)) ^ 2)) / (2 * INR n))%R).
Proof. exact (repeated_loss n T r c X t Y d Z). Qed.
Print Assumptions C95_repeated_loss_multitask.
(** one row of fits for two samples *)
Example C95_repeated_nonvacuous : multi_target_of 2 2 (fun i k => 1 + 2 * INR i + INR k)%R wY /\ repeatable 2 1 /\ repeatable 2 2 /\
  qmt_value xops (quadratic_mt_new xops) (Dataset tt wY) (xm 1 2 (fun _ k => INR k)) = Ret (Fin 5).
Proof. exact ex_repeated. Qed.
Theorem C95_gradient_multitask (F : Type) (o : FOps F) n p T X t d0 d z j : shaped n p X -> target_wf n T t -> j < p -> length z = n ->
  dfm_initialize (qmt_dense o) d0 (Dataset X t) = Ret d ->
  dfm_gradient_j (qmt_dense o) d (Dataset X t) (Mat n 1 (map (fun x => [x]) z)) j = dfm_gradient_j (qmt_dense o) d (Dataset X t) (Mat n T (map (fun x => repeat x T) z)) j.
Proof. exact (grad_one_column o n p T X t d0 d z j). Qed.
Print Assumptions C95_gradient_multitask.
(** logistic loss: never refused; surplus entries are ignored, missing samples are left out of the sum but not of the divisor *)
Theorem C95_logistic_loss (F : Type) (o : FOps F) (DM : Type) d (X : DM) t y Xw e : single_target (f0 o) t = Ret y ->
  (exists v, log_value o d (Dataset X t) Xw = Ret v) /\ (length Xw = length y -> log_value o d (Dataset X t) (Xw ++ e) = log_value o d (Dataset X t) Xw).
Proof. exact (logistic_total o d X t y Xw e). Qed.
Print Assumptions C95_logistic_loss.
Theorem C95_logistic_loss_short (DM : Type) n k (X : DM) t y d z : 1 <= n -> k <= n -> single_target_of n y t ->
  log_value xops d (Dataset X t) (xv k z) = Ret (Fin (Sum k (fun i => ln (1 + exp (- (y i * z i)))) / INR n)%R).
Proof. exact (short_logistic n k X t y d z). Qed.
Print Assumptions C95_logistic_loss_short.
(** dense gradients: the quadratic refuses every other length; the logistic refuses shorter fits and divides by the length of a longer one *)
Theorem C95_dense_gradient_refused (F : Type) (o : FOps F) n p X t d d' Xw j : shaped n p X -> target1_wf n t -> j < p ->
  (length Xw <> n -> quad_dense_gradient_j o d (Dataset X t) Xw j = Panic PShape) /\ (length Xw < n -> log_dense_gradient_j o d' (Dataset X t) Xw j = Panic PShape).
Proof. exact (fun HX Ht Hj => conj (quad_grad_refuses o n p X t d Xw j HX Hj) (log_grad_refuses o n p X t d' Xw j HX Ht Hj)). Qed.
Print Assumptions C95_dense_gradient_refused.
Theorem C95_logistic_gradient_longer (F : Type) (o : FOps F) n p X t d Xw e j : shaped n p X -> target1_wf n t -> j < p -> length Xw = n ->
  exists v, log_dense_gradient_j o d (Dataset X t) Xw j = Ret (fdiv o v (fcast o n)) /\ log_dense_gradient_j o d (Dataset X t) (Xw ++ e) j = Ret (fdiv o v (fcast o (n + length e))).
Proof. exact (log_grad_longer o n p X t d Xw e j). Qed.
Print Assumptions C95_logistic_gradient_longer.
(** sparse gradients: surplus entries are ignored *)
Theorem C95_sparse_gradient_longer (F : Type) (o : FOps F) n p X t d d' Xw e j : csc_wf n p X -> j < p -> length Xw = n ->
  quad_sparse_gradient_j o d (Dataset X t) (Xw ++ e) j = quad_sparse_gradient_j o d (Dataset X t) Xw j /\
  log_sparse_gradient_j o d' (Dataset X t) (Xw ++ e) j = log_sparse_gradient_j o d' (Dataset X t) Xw j.
Proof. exact (sparse_longer o n p X t d d' Xw e j). Qed.
Print Assumptions C95_sparse_gradient_longer.
(** update_model_fit on a dense design: refused, unless the design has a single row, which is then added to every entry *)
Theorem C95_dense_update (F : Type) (o : FOps F) n p X Xw k j : shaped n p X -> j < p ->
  (length Xw <> n -> n <> 1 -> dense_update o X Xw k j = Panic PShape) /\
  (forall x, n = 1 -> nth_error (concat (mrows X)) j = Some x -> dense_update o X Xw k j = Ret (map (fun v => fadd o v (fmul o k x)) Xw)).
Proof. exact (update_lengths o n p X Xw k j). Qed.
Print Assumptions C95_dense_update.
(** hence dense and sparse logistic gradients differ on a fit that is too long *)
Theorem C95_dense_sparse_agree_refuted : exists g h, shaped 1 1 (Mat 1 1 [[Fin 1]]) /\ csc_wf 1 1 wX /\
  log_dense_gradient_j xops (logistic_new xops) (Dataset (Mat 1 1 [[Fin 1]]) (T1 [Fin 1])) [Fin 0; Fin 0] 0 = Ret (Fin g) /\
  log_sparse_gradient_j xops (logistic_new xops) (Dataset wX (T1 [Fin 1])) [Fin 0; Fin 0] 0 = Ret (Fin h) /\ (h = 2 * g)%R /\ (g <> 0)%R.
Proof. exact dense_sparse_differ. Qed.
Print Assumptions C95_dense_sparse_agree_refuted.
Example C95_nonvacuous : single_target (f0 xops) wy = Ret [Fin 1; Fin 2] /\ single_target_of 2 (fun i => 1 + INR i)%R wy /\
  quad_value xops (quadratic_new xops) (Dataset tt wy) [Fin 3] = Ret (Fin (5 / 4)) /\
  quad_value xops (quadratic_new xops) (Dataset tt wy) [Fin 3; Fin 3; Fin 3] = Panic PShape.
Proof. exact ex_wrong. Qed.
