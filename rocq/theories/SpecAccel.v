(** Which calls of the acceleration step work on which problem. *)
From Coq Require Import List ZArith Bool Arith Reals Lra Lia.
From Verif Require Import Ops Arr XR VecR SpecPen MDatasets MDatafits MDatafitsMT MPenalties MBlockPenalties MCd MBcd SpecLin SpecData SpecDatafit SpecOpt.
Import ListNotations.
Open Scope R_scope.

Definition accel_call {DM D} (dm : DesignMatrix xr DM) (df : Datafit xr DM D) (k : single_pen) (ds : dataset DM xr) (d : D) :=
  match k with
  | LassoPen a => anderson_accel xops dm df (l1_penalty xops) ds d (L1 (Fin a))
  | EnetPen a r => anderson_accel xops dm df (l1l2_penalty xops) ds d (L1PlusL2 (Fin a) (Fin r))
  | McpPen a g => anderson_accel xops dm df (mcp_penalty xops) ds d (MCP (Fin a) (Fin g))
  end.
(** arguments: last iterates, coefficients, model fit, working set, epoch, [K], verbose *)
Inductive single_accel (n p : nat) : rmat -> (nat -> R) -> single_loss -> single_pen ->
    (mat xr -> list xr -> list xr -> list nat -> nat -> nat -> bool -> res (list xr * list xr * mat xr)) -> Prop :=
| accel_quad_dense X y k d0 d t : single_target_of n y t -> pen1_range k -> df_initialize (quad_dense xops) d0 (Dataset (xm n p X) t) = Ret d ->
    single_accel n p X y Squared k (accel_call (dense_dm xops) (quad_dense xops) k (Dataset (xm n p X) t) d)
| accel_quad_sparse E c y k d0 d t : csc_of n p E c -> single_target_of n y t -> pen1_range k -> df_initialize (quad_sparse xops) d0 (Dataset c t) = Ret d ->
    single_accel n p (entry E) y Squared k (accel_call (sparse_dm xops) (quad_sparse xops) k (Dataset c t) d)
| accel_log_dense X y k d0 d t : single_target_of n y t -> pen1_range k -> df_initialize (log_dense xops) d0 (Dataset (xm n p X) t) = Ret d ->
    single_accel n p X y Logistic k (accel_call (dense_dm xops) (log_dense xops) k (Dataset (xm n p X) t) d)
| accel_log_sparse E c y k d0 d t : csc_of n p E c -> single_target_of n y t -> pen1_range k -> df_initialize (log_sparse xops) d0 (Dataset c t) = Ret d ->
    single_accel n p (entry E) y Logistic k (accel_call (sparse_dm xops) (log_sparse xops) k (Dataset c t) d).

Definition accel_call_mt {DM D} (dm : DesignMatrix xr DM) (df : DatafitMT xr DM D) (k : multi_pen) (ds : dataset DM xr) (d : D) (H W XW : mat xr) :=
  match k with
  | MtLassoPen a => fun ws => anderson_accel_mt xops dm df (l21_penalty xops) ds W XW d (L21 (Fin a)) ws H
  | MtEnetPen a r => fun ws => anderson_accel_mt xops dm df (bl1l2_penalty xops) ds W XW d (BlockL1PlusL2 (Fin a) (Fin r)) ws H
  | BlockMcpPen a g => fun ws => anderson_accel_mt xops dm df (bmcp_penalty xops) ds W XW d (BlockMCP (Fin a) (Fin g)) ws H
  end.
Inductive multi_accel (n p T : nat) : rmat -> rmat -> multi_pen ->
    (mat xr -> mat xr -> mat xr -> list nat -> nat -> nat -> bool -> res (mat xr * mat xr * mat xr)) -> Prop :=
| accel_mt_dense X Y k d0 d t : multi_target_of n T Y t -> penT_range k -> dfm_initialize (qmt_dense xops) d0 (Dataset (xm n p X) t) = Ret d ->
    multi_accel n p T X Y k (accel_call_mt (dense_dm xops) (qmt_dense xops) k (Dataset (xm n p X) t) d)
| accel_mt_sparse E c Y k d0 d t : csc_of n p E c -> multi_target_of n T Y t -> penT_range k -> dfm_initialize (qmt_sparse xops) d0 (Dataset c t) = Ret d ->
    multi_accel n p T (entry E) Y k (accel_call_mt (sparse_dm xops) (qmt_sparse xops) k (Dataset c t) d).
