(** Model of [src/datasets]: design matrices and targets. *)
From Coq Require Import List ZArith Bool Arith.
From Verif Require Import Ops Arr.
Import ListNotations.

(** csc_array.rs 7-11.  [i32] indices are [Z]. *)
Record csc (F : Type) : Type := Csc { cdata : list F; cindices : list Z; cindptr : list Z }.
Arguments Csc {F}. Arguments cdata {F}. Arguments cindices {F}. Arguments cindptr {F}.

(** mod.rs 25-29 *)
Inductive design_matrix_type : Type := DenseDM | SparseDM.

(** Target arrays: 1-D or 2-D (impl_targets.rs 5-19, 22-36). *)
Inductive targets (F : Type) : Type := T1 (y : list F) | T2 (Y : mat F).
Arguments T1 {F}. Arguments T2 {F}.

(** mod.rs 33-37 *)
Inductive target_err : Type := NonCastableSingleTargets.

(** mod.rs 17-20 *)
Record dataset (DM F : Type) : Type := Dataset { design_matrix : DM; dtargets : targets F }.
Arguments Dataset {DM F}. Arguments design_matrix {DM F}. Arguments dtargets {DM F}.

Section Targets.
Context {F : Type}.

(** impl_targets.rs 8-10, 25-27 *)
Definition n_samples (t : targets F) : nat :=
  match t with T1 y => length y | T2 Y => mnr Y end.

(** impl_targets.rs 12-14, 29-31 *)
Definition n_tasks (t : targets F) : nat :=
  match t with T1 _ => 1 | T2 Y => mnc Y end.

(** impl_targets.rs 16-18, 33-35 *)
Definition as_multi_tasks (t : targets F) : mat F :=
  match t with
  | T1 y => Mat (length y) 1 (map (fun v => [v]) y)
  | T2 Y => Y
  end.

(** mod.rs 115-123.  [index_axis_move(Axis(1), 0)] panics when there is no column. *)
Definition try_single_target (d : F) (t : targets F) : res (result (list F) target_err) :=
  let m := as_multi_tasks t in
  if 1 <? mnc m then Ret (Err NonCastableSingleTargets)
  else c <- mcol d m 0 ;; Ret (Ok c).

(** [targets().try_single_target().unwrap()] *)
Definition single_target (d : F) (t : targets F) : res (list F) :=
  r <- try_single_target d t ;;
  match r with Ok y => Ret y | Err _ => Panic PUnwrap end.
End Targets.

(** mod.rs 50-89: the DesignMatrix trait as a record of functions. *)
Record DesignMatrix (F DM : Type) : Type := {
  dm_n_features : DM -> res nat;
  dm_matrix_type : DM -> design_matrix_type;
  dm_extrap : DM -> list nat -> list F -> nat -> res (list F);
  dm_extrap_mt : DM -> list nat -> mat F -> nat -> nat -> res (mat F);
  dm_update : DM -> list F -> F -> nat -> res (list F);
  dm_update_mt : DM -> mat F -> list F -> nat -> res (mat F)
}.
Arguments dm_n_features {F DM}. Arguments dm_matrix_type {F DM}.
Arguments dm_extrap {F DM}. Arguments dm_extrap_mt {F DM}.
Arguments dm_update {F DM}. Arguments dm_update_mt {F DM}.

Section DM.
Context {F : Type} (o : FOps F).
Local Notation "x + y" := (fadd o x y).
Local Notation "x * y" := (fmul o x y).

(** ** Dense matrices, impl_design_matrix.rs 6-75 *)

(** 17-29 *)
Definition dense_extrap (X : mat F) (ws : list nat) (w_acc : list F) (_n : nat) : res (list F) :=
  mapM (fun row =>
          ts <- mapM (fun j => a <- vget row j ;; b <- vget w_acc j ;; Ret (a * b)) ws ;;
          Ret (isum o ts)) (mrows X).

(** 31-55 *)
Definition dense_extrap_mt (X : mat F) (ws : list nat) (W_acc : mat F) (n_samples n_tasks : nat)
  : res (mat F) :=
  rs <- mapM (fun row =>
          mapM (fun col =>
            ts <- mapM (fun j => a <- vget row j ;; b <- vget col j ;; Ret (a * b)) ws ;;
            Ret (isum o ts)) (cols (f0 o) W_acc)) (mrows X) ;;
  reshape n_samples n_tasks (concat rs).

(** 57-59 *)
Definition dense_update (X : mat F) (Xw : list F) (diff : F) (j : nat) : res (list F) :=
  c <- mcol (f0 o) X j ;;
  vaxpy o diff Xw c.

(** 61-74 *)
Definition dense_update_mt (X : mat F) (XW : mat F) (diff : list F) (j : nat) : res (mat F) :=
  foldM (fun XW i =>
    foldM (fun XW t =>
      v <- mget XW i t ;;
      d <- vget diff t ;;
      x <- mget X i j ;;
      mset XW i t (v + d * x))
      (seq 0 (mnc XW)) XW)
    (seq 0 (mnr XW)) XW.

(** 9-15 *)
Definition dense_dm : DesignMatrix F (mat F) := {|
  dm_n_features := fun X => Ret (mnc X);
  dm_matrix_type := fun _ => DenseDM;
  dm_extrap := dense_extrap;
  dm_extrap_mt := dense_extrap_mt;
  dm_update := dense_update;
  dm_update_mt := dense_update_mt
|}.

(** ** Sparse matrices, impl_design_matrix.rs 78-142 *)

(** 81-83: [indptr.len() - 1] underflows on an empty [indptr] *)
Definition csc_n_features (X : csc F) : res nat :=
  match length (cindptr X) with O => Panic PUnderflow | S p => Ret p end.

(** [X.indptr[j]..X.indptr[j + 1]] *)
Definition csc_range (X : csc F) (j : nat) : res (list Z) :=
  lo <- vget (cindptr X) j ;;
  hi <- vget (cindptr X) (S j) ;;
  Ret (zrange lo hi).

(** 89-102 *)
Definition sparse_extrap (X : csc F) (ws : list nat) (w_acc : list F) (n_samples : nat)
  : res (list F) :=
  foldM (fun acc j =>
    r <- csc_range X j ;;
    foldM (fun acc idx =>
      i <- vgetz (cindices X) idx ;;
      x <- vgetz (cdata X) idx ;;
      w <- vget w_acc j ;;
      v <- vgetz acc i ;;
      vsetz acc i (v + x * w)) r acc) ws (vzeros o n_samples).

(** 104-121 *)
Definition sparse_extrap_mt (X : csc F) (ws : list nat) (W_acc : mat F) (n_samples n_tasks : nat)
  : res (mat F) :=
  foldM (fun acc j =>
    r <- csc_range X j ;;
    foldM (fun acc idx =>
      foldM (fun acc t =>
        i <- vgetz (cindices X) idx ;;
        x <- vgetz (cdata X) idx ;;
        w <- mget W_acc j t ;;
        if (i <? 0)%Z then Panic POob else
        v <- mget acc (Z.to_nat i) t ;;
        mset acc (Z.to_nat i) t (v + x * w)) (seq 0 n_tasks) acc) r acc)
    ws (mzeros o n_samples n_tasks).

(** 123-127 *)
Definition sparse_update (X : csc F) (Xw : list F) (diff : F) (j : nat) : res (list F) :=
  r <- csc_range X j ;;
  foldM (fun Xw idx =>
    i <- vgetz (cindices X) idx ;;
    x <- vgetz (cdata X) idx ;;
    v <- vgetz Xw i ;;
    vsetz Xw i (v + diff * x)) r Xw.

(** 129-141 *)
Definition sparse_update_mt (X : csc F) (XW : mat F) (diff : list F) (j : nat) : res (mat F) :=
  r <- csc_range X j ;;
  foldM (fun XW idx =>
    foldM (fun XW t =>
      i <- vgetz (cindices X) idx ;;
      d <- vget diff t ;;
      x <- vgetz (cdata X) idx ;;
      if (i <? 0)%Z then Panic POob else
      v <- mget XW (Z.to_nat i) t ;;
      mset XW (Z.to_nat i) t (v + d * x)) (seq 0 (mnc XW)) XW) r XW.

Definition sparse_dm : DesignMatrix F (csc F) := {|
  dm_n_features := csc_n_features;
  dm_matrix_type := fun _ => SparseDM;
  dm_extrap := sparse_extrap;
  dm_extrap_mt := sparse_extrap_mt;
  dm_update := sparse_update;
  dm_update_mt := sparse_update_mt
|}.

(** utils/mod.rs 83-94 (placed here because it needs [csc]) *)
Definition compute_alpha_max_sparse (X : csc F) (y : list F) : res F :=
  n_features <- csc_n_features X ;;
  Xty <- mapM (fun j =>
           r <- csc_range X j ;;
           foldM (fun acc idx =>
             x <- vgetz (cdata X) idx ;;
             i <- vgetz (cindices X) idx ;;
             yi <- vgetz y i ;;
             Ret (acc + x * yi)) r (f0 o)) (seq 0 n_features) ;;
  let alpha_max := fold_left (fun max_val x => fmax o max_val (fabs o x)) Xty (f0 o) in
  Ret (fdiv o alpha_max (fcast o (length y))).
End DM.
