(** Model of [src/datafits/single_task/mod.rs]. *)
From Coq Require Import List ZArith Bool Arith.
From Verif Require Import Ops Arr MUtils MDatasets.
Import ListNotations.

(** single_task/mod.rs 14-40: the Datafit trait.  [D] is the datafit's own state. *)
Record Datafit (F DM D : Type) : Type := {
  df_new : D;
  df_initialize : D -> dataset DM F -> res D;
  df_value : D -> dataset DM F -> list F -> res F;
  df_gradient_j : D -> dataset DM F -> list F -> nat -> res F;
  df_full_grad : D -> dataset DM F -> list F -> res (list F);
  df_step_size : D -> list F
}.
Arguments df_new {F DM D}. Arguments df_initialize {F DM D}. Arguments df_value {F DM D}.
Arguments df_gradient_j {F DM D}. Arguments df_full_grad {F DM D}. Arguments df_step_size {F DM D}.

(** 48-51 *)
Record quadratic (F : Type) : Type := Quad { q_lipschitz : list F; q_Xty : list F }.
Arguments Quad {F}. Arguments q_lipschitz {F}. Arguments q_Xty {F}.

(** 193-195 *)
Record logistic (F : Type) : Type := Logi { l_lipschitz : list F }.
Arguments Logi {F}. Arguments l_lipschitz {F}.

Section SingleTask.
Context {F : Type} (o : FOps F).
Local Notation "x + y" := (fadd o x y).
Local Notation "x - y" := (fsub o x y).
Local Notation "x * y" := (fmul o x y).
Local Notation "x / y" := (fdiv o x y).

(** ** Quadratic *)

(** 54-59 *)
Definition quadratic_new : quadratic F := Quad (vzeros o 1) (vzeros o 1).

(** 67-73 *)
Definition quad_dense_initialize (_ : quadratic F) (ds : dataset (mat F) F) : res (quadratic F) :=
  let ns := fcast o (n_samples (dtargets ds)) in
  let X := design_matrix ds in
  y <- single_target (f0 o) (dtargets ds) ;;
  Xty <- mtv o X y ;;
  Ret (Quad (map (fun Xj => ndot o Xj Xj / ns) (cols (f0 o) X)) Xty).

(** 76-81 and 170-176 (same text for dense and sparse) *)
Definition quad_value {DM} (_ : quadratic F) (ds : dataset DM F) (Xw : list F) : res F :=
  let ns := n_samples (dtargets ds) in
  y <- single_target (f0 o) (dtargets ds) ;;
  r <- vsub o y Xw ;;
  rr <- vdot o r r ;;
  Ret (rr / fcast o (2 * ns)).

(** 85-95 *)
Definition quad_dense_gradient_j (d : quadratic F) (ds : dataset (mat F) F) (Xw : list F) (j : nat)
  : res F :=
  let ns := fcast o (n_samples (dtargets ds)) in
  c <- mcol (f0 o) (design_matrix ds) j ;;
  _res <- vdot o c Xw ;;
  b <- vget (q_Xty d) j ;;
  Ret ((_res - b) / ns).

(** 99-110 *)
Definition quad_dense_full_grad (d : quadratic F) (ds : dataset (mat F) F) (Xw : list F)
  : res (list F) :=
  mapM (quad_dense_gradient_j d ds Xw) (seq 0 (mnc (design_matrix ds))).

Definition quad_dense : Datafit F (mat F) (quadratic F) := {|
  df_new := quadratic_new;
  df_initialize := quad_dense_initialize;
  df_value := quad_value;
  df_gradient_j := quad_dense_gradient_j;
  df_full_grad := quad_dense_full_grad;
  df_step_size := q_lipschitz
|}.

(** 123-140.  The two arrays are filled feature by feature: modelled as a list of pairs. *)
Definition quad_sparse_initialize (_ : quadratic F) (ds : dataset (csc F) F) : res (quadratic F) :=
  let ns := n_samples (dtargets ds) in
  let X := design_matrix ds in
  p <- csc_n_features X ;;
  y <- single_target (f0 o) (dtargets ds) ;;
  l <- mapM (fun j =>
         r <- csc_range X j ;;
         '(nrm2, xty) <- foldM (fun acc idx =>
              x <- vgetz (cdata X) idx ;;
              i <- vgetz (cindices X) idx ;;
              yi <- vgetz y i ;;
              Ret (fst acc + x * x, snd acc + x * yi)) r (f0 o, f0 o) ;;
         Ret (nrm2 / fcast o ns, xty)) (seq 0 p) ;;
  Ret (Quad (map fst l) (map snd l)).

(** 144-157 *)
Definition quad_sparse_gradient_j (d : quadratic F) (ds : dataset (csc F) F) (Xw : list F) (j : nat)
  : res F :=
  let ns := n_samples (dtargets ds) in
  let X := design_matrix ds in
  r <- csc_range X j ;;
  XjTXw <- foldM (fun acc idx =>
             x <- vgetz (cdata X) idx ;;
             i <- vgetz (cindices X) idx ;;
             v <- vgetz Xw i ;;
             Ret (acc + x * v)) r (f0 o) ;;
  b <- vget (q_Xty d) j ;;
  Ret ((XjTXw - b) / fcast o ns).

(** 160-167 *)
Definition quad_sparse_full_grad (d : quadratic F) (ds : dataset (csc F) F) (Xw : list F)
  : res (list F) :=
  p <- csc_n_features (design_matrix ds) ;;
  mapM (quad_sparse_gradient_j d ds Xw) (seq 0 p).

Definition quad_sparse : Datafit F (csc F) (quadratic F) := {|
  df_new := quadratic_new;
  df_initialize := quad_sparse_initialize;
  df_value := quad_value;
  df_gradient_j := quad_sparse_gradient_j;
  df_full_grad := quad_sparse_full_grad;
  df_step_size := q_lipschitz
|}.

(** ** Logistic *)

(** 198-202 *)
Definition logistic_new : logistic F := Logi (vzeros o 1).

(** 210-214 *)
Definition log_dense_initialize (_ : logistic F) (ds : dataset (mat F) F) : res (logistic F) :=
  let ns := n_samples (dtargets ds) in
  Ret (Logi (map (fun Xj => ndot o Xj Xj / fcast o (4 * ns)) (cols (f0 o) (design_matrix ds)))).

(** 217-224 and 283-290; [-xw_i * y_i] is [(-xw_i) * y_i] *)
Definition log_value {DM} (_ : logistic F) (ds : dataset DM F) (Xw : list F) : res F :=
  y <- single_target (f0 o) (dtargets ds) ;;
  Ret (isum o (map2 (fun xw_i y_i => flog o (f1 o + fexp o (fneg o xw_i * y_i)) (fe o)) Xw y)
       / fcast o (length y)).

(** 228-245 *)
Definition log_dense_gradient_j (_ : logistic F) (ds : dataset (mat F) F) (Xw : list F) (j : nat)
  : res F :=
  y <- single_target (f0 o) (dtargets ds) ;;
  let tmp := map2 (fun y_i xw_i => y_i * sigmoid o (fneg o y_i * xw_i)) y Xw in
  c <- mcol (f0 o) (design_matrix ds) j ;;
  v <- vdot o c tmp ;;
  Ret (fneg o v / fcast o (length Xw)).

(** 247-258 *)
Definition log_dense_full_grad (d : logistic F) (ds : dataset (mat F) F) (Xw : list F)
  : res (list F) :=
  mapM (log_dense_gradient_j d ds Xw) (seq 0 (mnc (design_matrix ds))).

Definition log_dense : Datafit F (mat F) (logistic F) := {|
  df_new := logistic_new;
  df_initialize := log_dense_initialize;
  df_value := log_value;
  df_gradient_j := log_dense_gradient_j;
  df_full_grad := log_dense_full_grad;
  df_step_size := l_lipschitz
|}.

(** 268-280 *)
Definition log_sparse_initialize (_ : logistic F) (ds : dataset (csc F) F) : res (logistic F) :=
  let ns := n_samples (dtargets ds) in
  let X := design_matrix ds in
  p <- csc_n_features X ;;
  l <- mapM (fun j =>
         r <- csc_range X j ;;
         nrm2 <- foldM (fun acc idx =>
              x <- vgetz (cdata X) idx ;; Ret (acc + x * x)) r (f0 o) ;;
         Ret (nrm2 / fcast o (4 * ns))) (seq 0 p) ;;
  Ret (Logi l).

(** 294-311 *)
Definition log_sparse_gradient_j (_ : logistic F) (ds : dataset (csc F) F) (Xw : list F) (j : nat)
  : res F :=
  let X := design_matrix ds in
  y <- single_target (f0 o) (dtargets ds) ;;
  let ns := n_samples (dtargets ds) in
  r <- csc_range X j ;;
  foldM (fun grad idx =>
    x <- vgetz (cdata X) idx ;;
    i <- vgetz (cindices X) idx ;;
    yi <- vgetz y i ;;
    v <- vgetz Xw i ;;
    Ret (grad - x * yi * sigmoid o (fneg o yi * v) / fcast o ns)) r (f0 o).

(** 313-320 *)
Definition log_sparse_full_grad (d : logistic F) (ds : dataset (csc F) F) (Xw : list F)
  : res (list F) :=
  p <- csc_n_features (design_matrix ds) ;;
  mapM (log_sparse_gradient_j d ds Xw) (seq 0 p).

Definition log_sparse : Datafit F (csc F) (logistic F) := {|
  df_new := logistic_new;
  df_initialize := log_sparse_initialize;
  df_value := log_value;
  df_gradient_j := log_sparse_gradient_j;
  df_full_grad := log_sparse_full_grad;
  df_step_size := l_lipschitz
|}.
End SingleTask.
