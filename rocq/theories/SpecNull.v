(** Vocabulary for statements about the null model: the value reported by the [alpha_max]
    functions for real data, and the weight it has to be compared with. *)
From Coq Require Import List ZArith Bool Arith Reals.
From Verif Require Import Ops Arr MUtils MDatasets MHyper MEstimators XR SpecLin SpecData SpecOpt.
Open Scope R_scope.

(** [am] is what the dense or the sparse function returns for the data [X], [y] *)
Definition reported_alpha_max (n p : nat) (X : rmat) (y : nat -> R) (am : R) : Prop :=
  compute_alpha_max xops (xm n p X) (xv n y) = Ret (Fin am) \/
  exists E c, csc_of n p E c /\ X = entry E /\ compute_alpha_max_sparse xops c (xv n y) = Ret (Fin am).
Definition reported_alpha_max_mt (n p T : nat) (X Y : rmat) (am : R) : Prop :=
  compute_alpha_max_mtl xops (xm n p X) (xm n T Y) = Ret (Fin am).
(** slope of the penalty at zero *)
Definition slope (k : single_pen) : R := match k with LassoPen a => a | EnetPen a r => a * r | McpPen a _ => a end.
Definition slope_mt (k : multi_pen) : R := match k with MtLassoPen a => a | MtEnetPen a r => a * r | BlockMcpPen a _ => a end.

(** what the solvers compare with [slope_mt k] at the zero model: [c] is the largest norm of
    [X_j^T Y / n], squared for the multi-task elastic net *)
Definition zero_level (k : multi_pen) (c : R) : R := match k with MtEnetPen _ _ => c ^ 2 | _ => c end.

(** *** any arithmetic *)
(** [fit] on accepted hyperparameters [pr] returns [z] *)
Definition returns {F DM A} (chk : params F -> result (params F) (estimator_error F)) (fit : params F -> dataset DM F -> res A)
    (pr : params F) (ds : dataset DM F) (z : A) : Prop :=
  forall q, chk pr = Ok q -> fit_unchecked chk fit pr ds = Ret (Ok z).
