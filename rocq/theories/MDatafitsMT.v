(** Model of [src/datafits/multi_task/mod.rs]. *)
From Coq Require Import List ZArith Bool Arith.
From Verif Require Import Ops Arr MUtils MDatasets.
Import ListNotations.

(** multi_task/mod.rs 12-35: the MultiTaskDatafit trait *)
Record DatafitMT (F DM D : Type) : Type := {
  dfm_new : D;
  dfm_initialize : D -> dataset DM F -> res D;
  dfm_value : D -> dataset DM F -> mat F -> res F;
  dfm_gradient_j : D -> dataset DM F -> mat F -> nat -> res (list F);
  dfm_full_grad : D -> dataset DM F -> mat F -> res (mat F);
  dfm_step_size : D -> list F
}.
Arguments dfm_new {F DM D}. Arguments dfm_initialize {F DM D}. Arguments dfm_value {F DM D}.
Arguments dfm_gradient_j {F DM D}. Arguments dfm_full_grad {F DM D}. Arguments dfm_step_size {F DM D}.

(** 45-48 *)
Record quadratic_mt (F : Type) : Type := QuadMT { qm_lipschitz : list F; qm_XtY : mat F }.
Arguments QuadMT {F}. Arguments qm_lipschitz {F}. Arguments qm_XtY {F}.

Section MultiTask.
Context {F : Type} (o : FOps F).
Local Notation "x + y" := (fadd o x y).
Local Notation "x - y" := (fsub o x y).
Local Notation "x * y" := (fmul o x y).
Local Notation "x / y" := (fdiv o x y).

(** 51-56 *)
Definition quadratic_mt_new : quadratic_mt F := QuadMT (vzeros o 1) (mzeros o 1 1).

(** 68-74 *)
Definition qmt_dense_initialize (_ : quadratic_mt F) (ds : dataset (mat F) F)
  : res (quadratic_mt F) :=
  let ns := fcast o (n_samples (dtargets ds)) in
  let X := design_matrix ds in
  let Y := as_multi_tasks (dtargets ds) in
  XtY <- mtm o X Y ;;
  Ret (QuadMT (map (fun Xj => ndot o Xj Xj / ns) (cols (f0 o) X)) XtY).

(** the common length of two axes, and a length-1 axis repeated to it (ndarray broadcasting) *)
Definition codim (n m : nat) : option nat :=
  if n =? m then Some n else if n =? 1 then Some m else if m =? 1 then Some n else None.
Definition stretch {A} (n : nat) (l : list A) : list A :=
  match l with [x] => repeat x n | _ => l end.

(** [&Y - &XW] on matrices *)
Definition msub (A B : mat F) : res (mat F) :=
  if (mnr A =? mnr B) && (mnc A =? mnc B)
  then Ret (Mat (mnr A) (mnc A) (map2 (map2 (fsub o)) (mrows A) (mrows B)))
  else
  match codim (mnr A) (mnr B), codim (mnc A) (mnc B) with
  | Some r, Some c =>
      let rows M := stretch r (map (stretch c) (mrows M)) in
      Ret (Mat r c (map2 (map2 (fsub o)) (rows A) (rows B)))
  | _, _ => Panic PShape
  end.

(** 77-83 and 161-167 *)
Definition qmt_value {DM} (_ : quadratic_mt F) (ds : dataset DM F) (XW : mat F) : res F :=
  let ns := n_samples (dtargets ds) in
  let Y := as_multi_tasks (dtargets ds) in
  R <- msub Y XW ;;
  let frob := isum o (map (sq o) (concat (mrows R))) in
  Ret (frob / fcast o (2 * ns)).

(** 87-97 *)
Definition qmt_dense_gradient_j (d : quadratic_mt F) (ds : dataset (mat F) F) (XW : mat F) (j : nat)
  : res (list F) :=
  let ns := fcast o (n_samples (dtargets ds)) in
  Xj <- mcol (f0 o) (design_matrix ds) j ;;
  g <- vtm o Xj XW ;;
  b <- mrow (qm_XtY d) j ;;
  r <- vsub o g b ;;
  Ret (map (fun v => v / ns) r).

(** 101-119 *)
Definition qmt_dense_full_grad (d : quadratic_mt F) (ds : dataset (mat F) F) (XW : mat F)
  : res (mat F) :=
  let p := mnc (design_matrix ds) in
  rs <- mapM (qmt_dense_gradient_j d ds XW) (seq 0 p) ;;
  reshape p (n_tasks (dtargets ds)) (concat rs).

Definition qmt_dense : DatafitMT F (mat F) (quadratic_mt F) := {|
  dfm_new := quadratic_mt_new;
  dfm_initialize := qmt_dense_initialize;
  dfm_value := qmt_value;
  dfm_gradient_j := qmt_dense_gradient_j;
  dfm_full_grad := qmt_dense_full_grad;
  dfm_step_size := qm_lipschitz
|}.

(** 148-155: the accumulators of one feature *)
Definition qmt_sparse_init_feature (X : csc F) (Y : mat F) (nt : nat) (j : nat)
  : res (F * list F) :=
  r <- csc_range X j ;;
  foldM (fun acc idx =>
    x <- vgetz (cdata X) idx ;;
    xty' <- foldM (fun xty t =>
              i <- vgetz (cindices X) idx ;;
              if (i <? 0)%Z then Panic POob else
              yit <- mget Y (Z.to_nat i) t ;;
              v <- vget xty t ;;
              vset xty t (v + x * yit)) (seq 0 nt) (snd acc) ;;
    Ret (fst acc + x * x, xty')) r (f0 o, vzeros o nt).

(** 135-158 *)
Definition qmt_sparse_initialize (_ : quadratic_mt F) (ds : dataset (csc F) F)
  : res (quadratic_mt F) :=
  let ns := fcast o (n_samples (dtargets ds)) in
  let nt := n_tasks (dtargets ds) in
  let X := design_matrix ds in
  p <- csc_n_features X ;;
  let Y := as_multi_tasks (dtargets ds) in
  l <- mapM (fun j =>
         '(nrm2, xty) <- qmt_sparse_init_feature X Y nt j ;;
         Ret (nrm2 / ns, xty)) (seq 0 p) ;;
  Ret (QuadMT (map fst l) (Mat p nt (map snd l))).

(** 171-188 *)
Definition qmt_sparse_gradient_j (d : quadratic_mt F) (ds : dataset (csc F) F) (XW : mat F) (j : nat)
  : res (list F) :=
  let ns := fcast o (n_samples (dtargets ds)) in
  let nt := n_tasks (dtargets ds) in
  let X := design_matrix ds in
  r <- csc_range X j ;;
  XjTXW <- foldM (fun acc idx =>
             foldM (fun acc t =>
               x <- vgetz (cdata X) idx ;;
               i <- vgetz (cindices X) idx ;;
               if (i <? 0)%Z then Panic POob else
               v <- mget XW (Z.to_nat i) t ;;
               a <- vget acc t ;;
               vset acc t (a + x * v)) (seq 0 nt) acc) r (vzeros o nt) ;;
  b <- mrow (qm_XtY d) j ;;
  g <- vsub o XjTXW b ;;
  Ret (map (fun v => v / ns) g).

(** 191-205 *)
Definition qmt_sparse_full_grad (d : quadratic_mt F) (ds : dataset (csc F) F) (XW : mat F)
  : res (mat F) :=
  p <- csc_n_features (design_matrix ds) ;;
  rs <- mapM (qmt_sparse_gradient_j d ds XW) (seq 0 p) ;;
  reshape p (n_tasks (dtargets ds)) (concat rs).

Definition qmt_sparse : DatafitMT F (csc F) (quadratic_mt F) := {|
  dfm_new := quadratic_mt_new;
  dfm_initialize := qmt_sparse_initialize;
  dfm_value := qmt_value;
  dfm_gradient_j := qmt_sparse_gradient_j;
  dfm_full_grad := qmt_sparse_full_grad;
  dfm_step_size := qm_lipschitz
|}.
End MultiTask.
