(** Model of [src/estimators/hyperparams.rs], [error.rs], [param_guard.rs].

    The six parameter structs have the same fields up to one: none for (MultiTask)Lasso,
    [gamma] for (Block)MCP, [l1_ratio] for (MultiTask)ElasticNet.  They are modelled by one
    record whose field [shape] is that extra field (constant [f0] and never read for the two
    Lasso structs).  The setters have the same text in all six copies. *)
From Coq Require Import List ZArith Bool Arith.
From Verif Require Import Ops.

(** error.rs 8-21.  Simplification: the offending float is carried itself, not its [f32] image. *)
Inductive estimator_error (F : Type) : Type :=
| InvalidRegularization (a : F)
| InvalidGamma (g : F)
| InvalidTolerance (t : F)
| InvalidK (k : nat)
| InvalidWSSize (n : nat)
| InvalidL1Ratio (r : F).
Arguments InvalidRegularization {F}. Arguments InvalidGamma {F}. Arguments InvalidTolerance {F}.
Arguments InvalidK {F}. Arguments InvalidWSSize {F}. Arguments InvalidL1Ratio {F}.

(** hyperparams.rs 7-16, 182-191, 357-367, 547-557, 736-746, 929-939 *)
Record params (F : Type) : Type := Params {
  p_alpha : F;
  p_shape : F;
  p_max_iterations : nat;
  p_max_epochs : nat;
  p_ws_start_size : nat;
  p_tolerance : F;
  p_K : nat;
  p_use_acceleration : bool;
  p_verbose : bool
}.
Arguments Params {F}. Arguments p_alpha {F}. Arguments p_shape {F}. Arguments p_max_iterations {F}.
Arguments p_max_epochs {F}. Arguments p_ws_start_size {F}. Arguments p_tolerance {F}.
Arguments p_K {F}. Arguments p_use_acceleration {F}. Arguments p_verbose {F}.

Section Hyper.
Context {F : Type} (o : FOps F).

(** *** Defaults: 73-84, 248-259, 427-439, 618-630, 807-819, 1000-1012 *)
Definition lasso_params_new : params F :=
  Params (f1 o) (f0 o) 50 1000 10 (flit o 1 1000000) 5 true true.
Definition mt_lasso_params_new : params F :=
  Params (f1 o) (f0 o) 50 1000 10 (flit o 1 1000000) 5 true true.
Definition mcp_params_new : params F :=
  Params (f1 o) (flit o 3 1) 50 1000 10 (flit o 1 1000000) 5 true true.
Definition block_mcp_params_new : params F :=
  Params (f1 o) (flit o 3 1) 50 1000 10 (flit o 1 1000000) 5 true true.
Definition elastic_net_params_new : params F :=
  Params (f1 o) (flit o 1 2) 50 1000 10 (flit o 1 1000000) 5 true true.
Definition mt_elastic_net_params_new : params F :=
  Params (f1 o) (flit o 1 2) 50 1000 10 (flit o 1 1000000) 5 true true.

(** *** Setters: 89-148 and the five other copies *)
Definition set_alpha (a : F) (p : params F) : params F :=
  Params a (p_shape p) (p_max_iterations p) (p_max_epochs p) (p_ws_start_size p) (p_tolerance p)
         (p_K p) (p_use_acceleration p) (p_verbose p).
Definition set_shape (s : F) (p : params F) : params F := (* gamma, resp. l1_ratio *)
  Params (p_alpha p) s (p_max_iterations p) (p_max_epochs p) (p_ws_start_size p) (p_tolerance p)
         (p_K p) (p_use_acceleration p) (p_verbose p).
Definition set_max_iterations (n : nat) (p : params F) : params F :=
  Params (p_alpha p) (p_shape p) n (p_max_epochs p) (p_ws_start_size p) (p_tolerance p)
         (p_K p) (p_use_acceleration p) (p_verbose p).
Definition set_max_epochs (n : nat) (p : params F) : params F :=
  Params (p_alpha p) (p_shape p) (p_max_iterations p) n (p_ws_start_size p) (p_tolerance p)
         (p_K p) (p_use_acceleration p) (p_verbose p).
Definition set_ws_start_size (n : nat) (p : params F) : params F :=
  Params (p_alpha p) (p_shape p) (p_max_iterations p) (p_max_epochs p) n (p_tolerance p)
         (p_K p) (p_use_acceleration p) (p_verbose p).
Definition set_tolerance (t : F) (p : params F) : params F :=
  Params (p_alpha p) (p_shape p) (p_max_iterations p) (p_max_epochs p) (p_ws_start_size p) t
         (p_K p) (p_use_acceleration p) (p_verbose p).
Definition set_K (k : nat) (p : params F) : params F :=
  Params (p_alpha p) (p_shape p) (p_max_iterations p) (p_max_epochs p) (p_ws_start_size p)
         (p_tolerance p) k (p_use_acceleration p) (p_verbose p).
Definition set_use_acceleration (b : bool) (p : params F) : params F :=
  Params (p_alpha p) (p_shape p) (p_max_iterations p) (p_max_epochs p) (p_ws_start_size p)
         (p_tolerance p) (p_K p) b (p_verbose p).
Definition set_verbose (b : bool) (p : params F) : params F :=
  Params (p_alpha p) (p_shape p) (p_max_iterations p) (p_max_epochs p) (p_ws_start_size p)
         (p_tolerance p) (p_K p) (p_use_acceleration p) b.

(** *** Validation *)
Definition vres := result (params F) (estimator_error F).

(** LassoParams 156-172 *)
Definition lasso_check_ref (p : params F) : vres :=
  if fisneg o (p_alpha p) then Err (InvalidRegularization (p_alpha p))
  else if fisneg o (p_tolerance p) then Err (InvalidTolerance (p_tolerance p))
  else if p_K p <=? 0 then Err (InvalidK (p_K p))
  else if p_ws_start_size p <=? 0 then Err (InvalidWSSize (p_ws_start_size p))
  else Ok p.

(** MultiTaskLassoParams 331-347 *)
Definition mt_lasso_check_ref (p : params F) : vres :=
  if fisneg o (p_alpha p) then Err (InvalidRegularization (p_alpha p))
  else if fisneg o (p_tolerance p) then Err (InvalidTolerance (p_tolerance p))
  else if p_K p <=? 0 then Err (InvalidK (p_K p))
  else if p_ws_start_size p <=? 0 then Err (InvalidWSSize (p_ws_start_size p))
  else Ok p.

(** MCParams 518-536 *)
Definition mcp_check_ref (p : params F) : vres :=
  if fisneg o (p_alpha p) then Err (InvalidRegularization (p_alpha p))
  else if flt o (p_shape p) (f1 o) then Err (InvalidGamma (p_shape p))
  else if fisneg o (p_tolerance p) then Err (InvalidTolerance (p_tolerance p))
  else if p_K p <=? 0 then Err (InvalidK (p_K p))
  else if p_ws_start_size p <=? 0 then Err (InvalidWSSize (p_ws_start_size p))
  else Ok p.

(** BlockMCParams 709-725: no condition on gamma in the source *)
Definition block_mcp_check_ref (p : params F) : vres :=
  if fisneg o (p_alpha p) then Err (InvalidRegularization (p_alpha p))
  else if fisneg o (p_tolerance p) then Err (InvalidTolerance (p_tolerance p))
  else if p_K p <=? 0 then Err (InvalidK (p_K p))
  else if p_ws_start_size p <=? 0 then Err (InvalidWSSize (p_ws_start_size p))
  else Ok p.

(** ElasticNetParams 898-918 *)
Definition elastic_net_check_ref (p : params F) : vres :=
  if fisneg o (p_alpha p) then Err (InvalidRegularization (p_alpha p))
  else if flt o (f1 o) (p_shape p) || flt o (p_shape p) (f0 o) then Err (InvalidL1Ratio (p_shape p))
  else if fisneg o (p_tolerance p) then Err (InvalidTolerance (p_tolerance p))
  else if p_K p <=? 0 then Err (InvalidK (p_K p))
  else if p_ws_start_size p <=? 0 then Err (InvalidWSSize (p_ws_start_size p))
  else Ok p.

(** MultiTaskElasticNetParams 1091-1111 *)
Definition mt_elastic_net_check_ref (p : params F) : vres :=
  if fisneg o (p_alpha p) then Err (InvalidRegularization (p_alpha p))
  else if flt o (f1 o) (p_shape p) || flt o (p_shape p) (f0 o) then Err (InvalidL1Ratio (p_shape p))
  else if fisneg o (p_tolerance p) then Err (InvalidTolerance (p_tolerance p))
  else if p_K p <=? 0 then Err (InvalidK (p_K p))
  else if p_ws_start_size p <=? 0 then Err (InvalidWSSize (p_ws_start_size p))
  else Ok p.

(** 174-177 and copies: [self.check_ref()?; Ok(self.0)] *)
Definition check (check_ref : params F -> vres) (p : params F) : vres :=
  match check_ref p with Err e => Err e | Ok _ => Ok p end.

(** param_guard.rs 26-31 *)
Definition check_unwrap (check_ref : params F -> vres) (p : params F) : res (params F) :=
  match check check_ref p with Ok q => Ret q | Err _ => Panic PUnwrap end.
End Hyper.
