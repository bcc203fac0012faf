(** Model of [src/utils/mod.rs]. *)
From Coq Require Import List ZArith Bool Arith.
From Verif Require Import Ops Arr.
Import ListNotations.

(** [Err("Infinitely many solutions or singular matrix")], utils/mod.rs 159 *)
Inductive lin_err : Type := SingularMatrix.

Section Utils.
Context {F : Type} (o : FOps F).
Local Notation "x + y" := (fadd o x y).
Local Notation "x - y" := (fsub o x y).
Local Notation "x * y" := (fmul o x y).
Local Notation "x / y" := (fdiv o x y).

(** utils/mod.rs 11-19 *)
Definition soft_thresholding (x threshold : F) : F :=
  if flt o threshold x then x - threshold
  else if flt o x (fneg o threshold) then x + threshold
  else f0 o.

(** utils/mod.rs 23-30 *)
Definition block_soft_thresholding (x : list F) (threshold : F) : list F :=
  let norm_x := fsqrt o (nsum o (map (sq o) x)) in
  if flt o norm_x threshold then vzeros o (length x)
  else
    let scale := f1 o - threshold / norm_x in
    map (fun xi => xi * scale) x.

(** utils/mod.rs 33-48 *)
Definition prox_05 (x threshold : F) : F :=
  let t := flit o 3 2 * fpowf o threshold (flit o 2 3) in
  if flt o (fabs o x) t then f0 o
  else
    x * flit o 2 3
      * (f1 o +
         fcos o (flit o 2 3 *
                 facos o (fneg o (fpowf o (fcast o 3) (flit o 3 2) / fcast o 4)
                          * threshold
                          * fpowf o (fabs o x) (flit o (-3) 2)))).

(** utils/mod.rs 63-68.  [X.shape()[0]] is the number of rows. *)
Definition compute_alpha_max (X : mat F) (y : list F) : res F :=
  let n_samples := fcast o (mnr X) in
  Xty <- mtv o X y ;;
  let alpha_max := fold_left (fun max_val x => fmax o (fabs o x) max_val) Xty (f0 o) in
  Ret (alpha_max / n_samples).

(** utils/mod.rs 72-78 *)
Definition compute_alpha_max_mtl (X Y : mat F) : res F :=
  XtY <- mtm o X Y ;;
  let norms_XtY := map (fun xtyj => fsqrt o (ndot o xtyj xtyj)) (mrows XtY) in
  let alpha_max := fold_left (fun max_val xty => fmax o max_val (fabs o xty)) norms_XtY (f0 o) in
  Ret (alpha_max / fcast o (mnr X)).

(** utils/mod.rs 101-109 as used by [construct_ws_from_kkt] (descending order).
    [srt] stands for [sort_unstable_by]; the comparator's [expect] panics as soon as a
    NaN is compared, which every sort of at least two elements does. *)
Definition argsort_desc (srt : list F -> list nat) (arr : list F) : res (list nat) :=
  if (2 <=? length arr) && existsb (fisnan o) arr then Panic PNaNCmp
  else Ret (srt arr).

(** utils/mod.rs 120-126: the augmented system [A | b] *)
Definition sls_fill (A : mat F) (b : list F) (size : nat) : res (mat F) :=
  foldM (fun sys i =>
    foldM (fun sys j =>
      v <- (if j =? size then vget b i else mget A i j) ;;
      mset sys i j v)
      (seq 0 (S size)) sys)
    (seq 0 size) (mzeros o size (S size)).

(** utils/mod.rs 135-137 and 149-151: [row dst -= factor * row src] on columns [ks] *)
Definition row_sub (dst src : nat) (factor : F) (ks : list nat) (sys : mat F) : res (mat F) :=
  foldM (fun sys k =>
    a <- mget sys dst k ;;
    b <- mget sys src k ;;
    mset sys dst k (a - factor * b)) ks sys.

(** utils/mod.rs 129-140 ([last] is [size - 1]) *)
Definition sls_forward (size last : nat) (sys : mat F) : res (mat F) :=
  foldM (fun sys i =>
    foldM (fun sys j =>
      piv <- mget sys i i ;;
      if feq o piv (f0 o) then Ret sys
      else
        e <- mget sys (S j) i ;;
        row_sub (S j) i (e / piv) (seq i (S size - i)) sys)
      (seq i (last - i)) sys)
    (seq 0 last) sys.

(** utils/mod.rs 143-154 *)
Definition sls_backward (size last : nat) (sys : mat F) : res (mat F) :=
  foldM (fun sys i =>
    piv <- mget sys i i ;;
    if feq o piv (f0 o) then Ret sys
    else
      foldM (fun sys j =>
        piv' <- mget sys i i ;;
        e <- mget sys (j - 1)%nat i ;;
        row_sub (j - 1) i (e / piv') (rev (seq 0 (S size))) sys)
        (rev (seq 1 i)) sys)
    (rev (seq 1 last)) sys.

(** utils/mod.rs 156-167 *)
Fixpoint sls_extract (size : nat) (is : list nat) (sys : mat F) (x : list F)
  : res (result (list F) lin_err) :=
  match is with
  | [] => Ret (Ok x)
  | i :: is' =>
      piv <- mget sys i i ;;
      if feq o piv (f0 o) then Ret (Err SingularMatrix)
      else
        rhs <- mget sys i size ;;
        sys1 <- mset sys i size (rhs / piv) ;;
        sys2 <- mset sys1 i i (f1 o) ;;
        v <- mget sys2 i size ;;
        x' <- vset x i v ;;
        sls_extract size is' sys2 x'
  end.

(** utils/mod.rs 115-168.  [0..size - 1] underflows for an empty right-hand side. *)
Definition solve_lin_sys (A : mat F) (b : list F) : res (result (list F) lin_err) :=
  let size := length b in
  sys0 <- sls_fill A b size ;;
  match size with
  | O => Panic PUnderflow
  | S last =>
      sys1 <- sls_forward size last sys0 ;;
      sys2 <- sls_backward size last sys1 ;;
      sls_extract size (seq 0 size) sys2 (vzeros o size)
  end.

(** utils/mod.rs 170-172 *)
Definition sigmoid (x : F) : F := f1 o / (f1 o + fexp o (fneg o x)).
End Utils.
