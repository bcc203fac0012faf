(** Vocabulary for comparing two floating-point Lasso or elastic-net fits of the same data, possibly in
    different number formats and storage forms. *)
From Coq Require Import List Arith ZArith Reals.
From Flocq Require Import Core BinarySingleNaN.
From Verif Require Import Ops Arr MUtils MDatasets MDatafits MPenalties MCd MHyper MEstimators IEEE RSum SpecPen SpecRound SpecData SpecSolve SpecOpt SpecTrace SpecDrift SpecDriftEnet.
Import ListNotations.
Open Scope R_scope.

Section Fit.
Context (prec emax : Z) (Hp : Prec_gt_0 prec) (Hm : Prec_lt_emax prec emax) (m : libm prec emax).
Local Notation bf := (binary_float prec emax).
Local Notation o := (ieee_ops prec emax Hp Hm m).
Local Notation tgt t := (fun i => nth i (tgtR prec emax t) 0).

(** [k] rounds from zero to the coefficients [w]; their last [js] updates start at [s0] *)
Definition course {DM P} (dm : DesignMatrix bf DM) (df : Datafit bf DM (quadratic bf)) (pen : Penalty bf P) (ds : dataset DM bf) (q : P) (n p : nat) (v : params bf) (w : list bf)
    (d : quadratic bf) (k : nat) (s0 : list bf * list bf) (js : list nat) (Xw : list bf) : Prop :=
  df_initialize df (quadratic_new o) ds = Ret d /\ (k <= p_max_iterations v)%nat /\
  rounds o dm df pen ds d q p n (p_tolerance v) (p_max_epochs v * p) k (zero_state o p n) (w, Xw) /\
  origin prec emax o dm ds p n s0 /\ (length js <= k * (p_max_epochs v * p))%nat /\ foldM (cd_step o dm df pen ds d q) js s0 = Ret (w, Xw).
(** numbers stay finite, and tolerance and rounding errors together stay below [eps]; [ps] is the error of the penalty's derivative *)
Definition resolves {DM P} (dm : DesignMatrix bf DM) (df : Datafit bf DM (quadratic bf)) (pen : Penalty bf P) (ds : dataset DM bf) (q : P) (ps : R -> R) (E : nat -> nat -> R) (y : nat -> R) (n p : nat)
    (v : params bf) (w : list bf) (d : quadratic bf) (s0 : list bf * list bf) (js : list nat) (Xw : list bf) (eps : R) : Prop :=
  (forall j g, (j < p)%nat -> df_gradient_j df d ds Xw j = Ret g -> finite prec emax g) /\ (forall x, In x w -> finite prec emax x) /\
  forall j, (j < p)%nat -> B2R (p_tolerance v) + (1 + urd prec) * (slack prec emax E p n y (atR prec emax w) (history prec emax o dm df pen ds d q p js s0) j + ps (atR prec emax w j)) <= (1 - urd prec) * eps.

(** a call of [fit] on data with exact values [E], [y], with the exact penalty, the parameters and the
    coefficients returned; the last argument relates numbers of rounds to the accuracies they resolve *)
Inductive float_fit (n p : nat) (E : nat -> nat -> R) (y : nat -> R) : single_pen -> params bf -> list bf -> (nat -> (R -> Prop) -> Prop) -> Prop :=
| fit_lasso_dense srt X t v w : reduces prec emax Hp Hm m -> valid_sort o srt -> (Z.of_nat n <= 2 ^ prec)%Z -> shaped n p X -> target1_wf n t ->
    finite prec emax (p_alpha v) -> 0 <= B2R (p_alpha v) -> finite prec emax (p_tolerance v) ->
    (forall i j, (i < n)%nat -> (j < p)%nat -> entR prec emax X i j = E i j) -> (forall i, (i < n)%nat -> nth i (tgtR prec emax t) 0 = y i) ->
    lasso_fit_dense o srt v (Dataset X t) = Ret w ->
    float_fit n p E y (LassoPen (B2R (p_alpha v))) v w (fun k W => exists d s0 js Xw,
      course (dense_dm o) (quad_dense o) (l1_penalty o) (Dataset X t) (L1 (p_alpha v)) n p v w d k s0 js Xw /\
      W = resolves (dense_dm o) (quad_dense o) (l1_penalty o) (Dataset X t) (L1 (p_alpha v)) (fun _ => 0) (entR prec emax X) (tgt t) n p v w d s0 js Xw)
| fit_lasso_sparse srt cs X t v w : valid_sort o srt -> (Z.of_nat n <= 2 ^ prec)%Z -> stores prec emax n p cs X -> target1_wf n t ->
    finite prec emax (p_alpha v) -> 0 <= B2R (p_alpha v) -> finite prec emax (p_tolerance v) ->
    (forall i j, (i < n)%nat -> (j < p)%nat -> storedR prec emax cs i j = E i j) -> (forall i, (i < n)%nat -> nth i (tgtR prec emax t) 0 = y i) ->
    lasso_fit_sparse o srt v (Dataset X t) = Ret w ->
    float_fit n p E y (LassoPen (B2R (p_alpha v))) v w (fun k W => exists d s0 js Xw,
      course (sparse_dm o) (quad_sparse o) (l1_penalty o) (Dataset X t) (L1 (p_alpha v)) n p v w d k s0 js Xw /\
      W = resolves (sparse_dm o) (quad_sparse o) (l1_penalty o) (Dataset X t) (L1 (p_alpha v)) (fun _ => 0) (storedR prec emax cs) (tgt t) n p v w d s0 js Xw)
| fit_enet_dense srt X t v w : reduces prec emax Hp Hm m -> valid_sort o srt -> (Z.of_nat n <= 2 ^ prec)%Z -> shaped n p X -> target1_wf n t ->
    finite prec emax (p_alpha v) -> 0 < B2R (p_alpha v) -> finite prec emax (p_shape v) -> 0 <= B2R (p_shape v) <= 1 -> finite prec emax (p_tolerance v) ->
    (forall i j, (i < n)%nat -> (j < p)%nat -> entR prec emax X i j = E i j) -> (forall i, (i < n)%nat -> nth i (tgtR prec emax t) 0 = y i) ->
    elastic_net_fit_dense o srt v (Dataset X t) = Ret w ->
    float_fit n p E y (EnetPen (B2R (p_alpha v)) (B2R (p_shape v))) v w (fun k W => exists d s0 js Xw,
      course (dense_dm o) (quad_dense o) (l1l2_penalty o) (Dataset X t) (L1PlusL2 (p_alpha v) (p_shape v)) n p v w d k s0 js Xw /\
      W = resolves (dense_dm o) (quad_dense o) (l1l2_penalty o) (Dataset X t) (L1PlusL2 (p_alpha v) (p_shape v)) (pen_slack prec emax (B2R (p_alpha v)) (B2R (p_shape v))) (entR prec emax X) (tgt t) n p v w d s0 js Xw)
| fit_enet_sparse srt cs X t v w : valid_sort o srt -> (Z.of_nat n <= 2 ^ prec)%Z -> stores prec emax n p cs X -> target1_wf n t ->
    finite prec emax (p_alpha v) -> 0 < B2R (p_alpha v) -> finite prec emax (p_shape v) -> 0 <= B2R (p_shape v) <= 1 -> finite prec emax (p_tolerance v) ->
    (forall i j, (i < n)%nat -> (j < p)%nat -> storedR prec emax cs i j = E i j) -> (forall i, (i < n)%nat -> nth i (tgtR prec emax t) 0 = y i) ->
    elastic_net_fit_sparse o srt v (Dataset X t) = Ret w ->
    float_fit n p E y (EnetPen (B2R (p_alpha v)) (B2R (p_shape v))) v w (fun k W => exists d s0 js Xw,
      course (sparse_dm o) (quad_sparse o) (l1l2_penalty o) (Dataset X t) (L1PlusL2 (p_alpha v) (p_shape v)) n p v w d k s0 js Xw /\
      W = resolves (sparse_dm o) (quad_sparse o) (l1l2_penalty o) (Dataset X t) (L1PlusL2 (p_alpha v) (p_shape v)) (pen_slack prec emax (B2R (p_alpha v)) (B2R (p_shape v))) (storedR prec emax cs) (tgt t) n p v w d s0 js Xw).
End Fit.

(** weight of the absolute values in a penalty without MCP *)
Definition weight1 (k : single_pen) : R := match k with LassoPen a => a | EnetPen a r => a * r | McpPen _ _ => 0 end.
