(** Model of [src/estimators/estimators.rs] and [src/solvers/impl_solver.rs]. *)
From Coq Require Import List ZArith Bool Arith.
From Verif Require Import Ops Arr MUtils MDatasets MDatafits MDatafitsMT MPenalties MBlockPenalties
  MCd MBcd MHyper.
Import ListNotations.

(** solvers/mod.rs 26-41 *)
Record solver (F : Type) : Type := Solver {
  s_ws_start_size : nat;
  s_max_iterations : nat;
  s_max_epochs : nat;
  s_tolerance : F;
  s_K : nat;
  s_use_acceleration : bool;
  s_verbose : bool
}.
Arguments Solver {F}. Arguments s_ws_start_size {F}. Arguments s_max_iterations {F}.
Arguments s_max_epochs {F}. Arguments s_tolerance {F}. Arguments s_K {F}.
Arguments s_use_acceleration {F}. Arguments s_verbose {F}.

Section Estimators.
Context {F : Type} (o : FOps F) (srt : list F -> list nat).

(** *** [Solver], impl_solver.rs *)

(** 15-27 *)
Definition solver_default : solver F := Solver 10 50 1000 (flit o 1 100000000) 5 true true.

(** 37-88 *)
Definition solver_ws_start_size (n : nat) (s : solver F) : solver F :=
  Solver n (s_max_iterations s) (s_max_epochs s) (s_tolerance s) (s_K s) (s_use_acceleration s)
         (s_verbose s).
Definition solver_max_iterations (n : nat) (s : solver F) : solver F :=
  Solver (s_ws_start_size s) n (s_max_epochs s) (s_tolerance s) (s_K s) (s_use_acceleration s)
         (s_verbose s).
Definition solver_max_epochs (n : nat) (s : solver F) : solver F :=
  Solver (s_ws_start_size s) (s_max_iterations s) n (s_tolerance s) (s_K s) (s_use_acceleration s)
         (s_verbose s).
Definition solver_tolerance (t : F) (s : solver F) : solver F :=
  Solver (s_ws_start_size s) (s_max_iterations s) (s_max_epochs s) t (s_K s)
         (s_use_acceleration s) (s_verbose s).
Definition solver_K (k : nat) (s : solver F) : solver F :=
  Solver (s_ws_start_size s) (s_max_iterations s) (s_max_epochs s) (s_tolerance s) k
         (s_use_acceleration s) (s_verbose s).
Definition solver_use_acceleration (b : bool) (s : solver F) : solver F :=
  Solver (s_ws_start_size s) (s_max_iterations s) (s_max_epochs s) (s_tolerance s) (s_K s) b
         (s_verbose s).
Definition solver_verbose (b : bool) (s : solver F) : solver F :=
  Solver (s_ws_start_size s) (s_max_iterations s) (s_max_epochs s) (s_tolerance s) (s_K s)
         (s_use_acceleration s) b.

(** 101-121; the [Result] is always [Ok] *)
Definition solve {DM D P} (dm : DesignMatrix F DM) (df : Datafit F DM D) (pen : Penalty F P)
    (s : solver F) (ds : dataset DM F) (d : D) (p : P) : res (list F) :=
  coordinate_descent o dm df pen srt ds d p (s_ws_start_size s) (s_max_iterations s)
    (s_max_epochs s) (s_tolerance s) (s_K s) (s_use_acceleration s) (s_verbose s).

(** 134-154 *)
Definition solve_multi_task {DM D P} (dm : DesignMatrix F DM) (df : DatafitMT F DM D)
    (pen : PenaltyMT F P) (s : solver F) (ds : dataset DM F) (d : D) (p : P) : res (mat F) :=
  block_coordinate_descent o dm df pen srt ds d p (s_ws_start_size s) (s_max_iterations s)
    (s_max_epochs s) (s_tolerance s) (s_K s) (s_use_acceleration s) (s_verbose s).

(** *** [Fit] for checked parameters, estimators.rs *)

(** Lasso: 53-70 (dense), 84-101 (sparse) *)
Definition lasso_fit_dense (v : params F) (ds : dataset (mat F) F) : res (list F) :=
  coordinate_descent o (dense_dm o) (quad_dense o) (l1_penalty o) srt ds (quadratic_new o)
    (L1 (p_alpha v)) (p_ws_start_size v) (p_max_iterations v) (p_max_epochs v) (p_tolerance v)
    (p_K v) (p_use_acceleration v) (p_verbose v).
Definition lasso_fit_sparse (v : params F) (ds : dataset (csc F) F) : res (list F) :=
  coordinate_descent o (sparse_dm o) (quad_sparse o) (l1_penalty o) srt ds (quadratic_new o)
    (L1 (p_alpha v)) (p_ws_start_size v) (p_max_iterations v) (p_max_epochs v) (p_tolerance v)
    (p_K v) (p_use_acceleration v) (p_verbose v).

(** MultiTaskLasso: 137-153, 167-184 *)
Definition mt_lasso_fit_dense (v : params F) (ds : dataset (mat F) F) : res (mat F) :=
  block_coordinate_descent o (dense_dm o) (qmt_dense o) (l21_penalty o) srt ds (quadratic_mt_new o)
    (L21 (p_alpha v)) (p_ws_start_size v) (p_max_iterations v) (p_max_epochs v) (p_tolerance v)
    (p_K v) (p_use_acceleration v) (p_verbose v).
Definition mt_lasso_fit_sparse (v : params F) (ds : dataset (csc F) F) : res (mat F) :=
  block_coordinate_descent o (sparse_dm o) (qmt_sparse o) (l21_penalty o) srt ds (quadratic_mt_new o)
    (L21 (p_alpha v)) (p_ws_start_size v) (p_max_iterations v) (p_max_epochs v) (p_tolerance v)
    (p_K v) (p_use_acceleration v) (p_verbose v).

(** MCPEstimator: 221-238, 252-269 *)
Definition mcp_fit_dense (v : params F) (ds : dataset (mat F) F) : res (list F) :=
  coordinate_descent o (dense_dm o) (quad_dense o) (mcp_penalty o) srt ds (quadratic_new o)
    (MCP (p_alpha v) (p_shape v)) (p_ws_start_size v) (p_max_iterations v) (p_max_epochs v)
    (p_tolerance v) (p_K v) (p_use_acceleration v) (p_verbose v).
Definition mcp_fit_sparse (v : params F) (ds : dataset (csc F) F) : res (list F) :=
  coordinate_descent o (sparse_dm o) (quad_sparse o) (mcp_penalty o) srt ds (quadratic_new o)
    (MCP (p_alpha v) (p_shape v)) (p_ws_start_size v) (p_max_iterations v) (p_max_epochs v)
    (p_tolerance v) (p_K v) (p_use_acceleration v) (p_verbose v).

(** BlockMCPEstimator: 307-324, 338-355 *)
Definition block_mcp_fit_dense (v : params F) (ds : dataset (mat F) F) : res (mat F) :=
  block_coordinate_descent o (dense_dm o) (qmt_dense o) (bmcp_penalty o) srt ds (quadratic_mt_new o)
    (BlockMCP (p_alpha v) (p_shape v)) (p_ws_start_size v) (p_max_iterations v) (p_max_epochs v)
    (p_tolerance v) (p_K v) (p_use_acceleration v) (p_verbose v).
Definition block_mcp_fit_sparse (v : params F) (ds : dataset (csc F) F) : res (mat F) :=
  block_coordinate_descent o (sparse_dm o) (qmt_sparse o) (bmcp_penalty o) srt ds
    (quadratic_mt_new o) (BlockMCP (p_alpha v) (p_shape v)) (p_ws_start_size v)
    (p_max_iterations v) (p_max_epochs v) (p_tolerance v) (p_K v) (p_use_acceleration v)
    (p_verbose v).

(** ElasticNet: 390-407, 421-438 *)
Definition elastic_net_fit_dense (v : params F) (ds : dataset (mat F) F) : res (list F) :=
  coordinate_descent o (dense_dm o) (quad_dense o) (l1l2_penalty o) srt ds (quadratic_new o)
    (L1PlusL2 (p_alpha v) (p_shape v)) (p_ws_start_size v) (p_max_iterations v) (p_max_epochs v)
    (p_tolerance v) (p_K v) (p_use_acceleration v) (p_verbose v).
Definition elastic_net_fit_sparse (v : params F) (ds : dataset (csc F) F) : res (list F) :=
  coordinate_descent o (sparse_dm o) (quad_sparse o) (l1l2_penalty o) srt ds (quadratic_new o)
    (L1PlusL2 (p_alpha v) (p_shape v)) (p_ws_start_size v) (p_max_iterations v) (p_max_epochs v)
    (p_tolerance v) (p_K v) (p_use_acceleration v) (p_verbose v).

(** MultiTaskElasticNet: 475-492, 506-523 *)
Definition mt_elastic_net_fit_dense (v : params F) (ds : dataset (mat F) F) : res (mat F) :=
  block_coordinate_descent o (dense_dm o) (qmt_dense o) (bl1l2_penalty o) srt ds
    (quadratic_mt_new o) (BlockL1PlusL2 (p_alpha v) (p_shape v)) (p_ws_start_size v)
    (p_max_iterations v) (p_max_epochs v) (p_tolerance v) (p_K v) (p_use_acceleration v)
    (p_verbose v).
Definition mt_elastic_net_fit_sparse (v : params F) (ds : dataset (csc F) F) : res (mat F) :=
  block_coordinate_descent o (sparse_dm o) (qmt_sparse o) (bl1l2_penalty o) srt ds
    (quadratic_mt_new o) (BlockL1PlusL2 (p_alpha v) (p_shape v)) (p_ws_start_size v)
    (p_max_iterations v) (p_max_epochs v) (p_tolerance v) (p_K v) (p_use_acceleration v)
    (p_verbose v).

(** *** [Fit] for unchecked parameters, param_guard.rs 46-49 *)
Definition fit_unchecked {DM A} (check_ref : params F -> result (params F) (estimator_error F))
    (fit : params F -> dataset DM F -> res A) (p : params F) (ds : dataset DM F)
  : res (result A (estimator_error F)) :=
  match check_ref p with
  | Err e => Ret (Err e)
  | Ok checked => c <- fit checked ds ;; Ret (Ok c)
  end.
End Estimators.
