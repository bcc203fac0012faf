(** Model of [src/penalties/block_separable/mod.rs]. *)
From Coq Require Import List ZArith Bool Arith.
From Verif Require Import Ops Arr MUtils.
Import ListNotations.

(** block_separable/mod.rs 11-34: the MultiTaskPenalty trait *)
Record PenaltyMT (F P : Type) : Type := {
  bpen_value : P -> mat F -> F;
  bpen_prox : P -> list F -> F -> list F;
  bpen_subdiff_distance : P -> mat F -> mat F -> list nat -> res (list F * F)
}.
Arguments bpen_value {F P}. Arguments bpen_prox {F P}. Arguments bpen_subdiff_distance {F P}.

(** 41-43, 109-112, 188-191 *)
Record l21 (F : Type) : Type := L21 { l21_alpha : F }.
Record bl1l2 (F : Type) : Type := BlockL1PlusL2 { bl_alpha : F; bl_l21_ratio : F }.
Record bmcp (F : Type) : Type := BlockMCP { bmcp_alpha : F; bmcp_gamma : F }.
Arguments L21 {F}. Arguments l21_alpha {F}.
Arguments BlockL1PlusL2 {F}. Arguments bl_alpha {F}. Arguments bl_l21_ratio {F}.
Arguments BlockMCP {F}. Arguments bmcp_alpha {F}. Arguments bmcp_gamma {F}.

Section Block.
Context {F : Type} (o : FOps F).
Local Notation "x + y" := (fadd o x y).
Local Notation "x - y" := (fsub o x y).
Local Notation "x * y" := (fmul o x y).
Local Notation "x / y" := (fdiv o x y).

(** [v.dot(&v).sqrt()] *)
Definition rownorm (v : list F) : F := fsqrt o (ndot o v v).

(** [W_j.iter().any(|&w| w != 0)] *)
Definition any_nonzero (v : list F) : bool := existsb (fun x => negb (feq o x (f0 o))) v.

(** the shape shared by the [subdiff_distance] methods, e.g. 76-99 *)
Definition bscores (score : list F -> list F -> F) (W grad : mat F) (ws : list nat)
  : res (list F * F) :=
  d <- mapM (fun p => Wj <- mrow W (snd p) ;; Ret (score Wj (fst p))) (combine (mrows grad) ws) ;;
  Ret (d, fold_max o (fninf o) d).

(** *** L21 *)

(** 56-58 *)
Definition l21_value (p : l21 F) (W : mat F) : F :=
  l21_alpha p * nsum o (map rownorm (mrows W)).

(** 61-63 *)
Definition l21_prox (p : l21 F) (value : list F) (stepsize : F) : list F :=
  block_soft_thresholding o value (l21_alpha p * stepsize).

(** 80-95 *)
Definition l21_score (p : l21 F) (Wj grad : list F) : F :=
  if any_nonzero Wj then
    let norm_W_j := rownorm Wj in
    fsqrt o (fold_left (fun sum gw =>
               sum + sq o (fst gw + l21_alpha p * snd gw / norm_W_j)) (combine grad Wj) (f0 o))
  else
    fmax o (f0 o) (rownorm grad - l21_alpha p).

Definition l21_penalty : PenaltyMT F (l21 F) := {|
  bpen_value := l21_value;
  bpen_prox := l21_prox;
  bpen_subdiff_distance := fun p => bscores (l21_score p)
|}.

(** *** BlockL1PlusL2 *)

(** 127-132 *)
Definition bl1l2_value (p : bl1l2 F) (W : mat F) : F :=
  let norms := map rownorm (mrows W) in
  bl_alpha p * (bl_l21_ratio p * nsum o norms
                + (f1 o - bl_l21_ratio p) * flit o 1 2 * ndot o norms norms).

(** 135-138 *)
Definition bl1l2_prox (p : bl1l2 F) (value : list F) (stepsize : F) : list F :=
  let prox := block_soft_thresholding o value (bl_alpha p * stepsize * bl_l21_ratio p) in
  map (fun x => x / (f1 o + stepsize * (f1 o - bl_l21_ratio p) * bl_alpha p)) prox.

(** 156-175; note 172: the gradient norm is squared, there is no [sqrt] in the source *)
Definition bl1l2_score (p : bl1l2 F) (Wj grad : list F) : F :=
  if any_nonzero Wj then
    let norm_W_j := rownorm Wj in
    fsqrt o (fold_left (fun sum gw =>
               sum + sq o (fst gw
                           + bl_alpha p * (snd gw / norm_W_j * bl_l21_ratio p
                                           + (f1 o - bl_l21_ratio p) * snd gw)))
             (combine grad Wj) (f0 o))
  else
    fmax o (f0 o) (ndot o grad grad - bl_alpha p * bl_l21_ratio p).

Definition bl1l2_penalty : PenaltyMT F (bl1l2 F) := {|
  bpen_value := bl1l2_value;
  bpen_prox := bl1l2_prox;
  bpen_subdiff_distance := fun p => bscores (bl1l2_score p)
|}.

(** *** BlockMCP *)

(** 215-218 *)
Definition bmcp_pen1 (p : bmcp F) (nrm : F) : F :=
  if flt o nrm (bmcp_alpha p * bmcp_gamma p)
  then bmcp_alpha p * nrm - sq o nrm / (flit o 2 1 * bmcp_gamma p)
  else bmcp_gamma p * sq o (bmcp_alpha p) / flit o 2 1.

(** 210-220 *)
Definition bmcp_value (p : bmcp F) (W : mat F) : F :=
  isum o (map (fun r => bmcp_pen1 p (rownorm r)) (mrows W)).

(** 228-245 *)
Definition bmcp_prox (p : bmcp F) (value : list F) (stepsize : F) : list F :=
  let tau := bmcp_alpha p * stepsize in
  let g := bmcp_gamma p / stepsize in
  let norm_value := rownorm value in
  if fle o norm_value tau then vzeros o (length value)
  else if flt o (g * tau) norm_value then value
  else map (fun v => (f1 o - tau / norm_value) * v / (f1 o - f1 o / g)) value.

(** 260-279; note 270-273: the gradient does not occur in the middle case of the source *)
Definition bmcp_score (p : bmcp F) (Wj grad : list F) : F :=
  let norm_W_j := rownorm Wj in
  if negb (any_nonzero Wj) then
    fmax o (f0 o) (rownorm grad - bmcp_alpha p)
  else if flt o norm_W_j (bmcp_alpha p * bmcp_gamma p) then
    let scale := bmcp_alpha p / norm_W_j - f1 o / bmcp_gamma p in
    fsqrt o (nsum o (map (fun w => sq o (w * scale)) Wj))
  else rownorm grad.

Definition bmcp_penalty : PenaltyMT F (bmcp F) := {|
  bpen_value := bmcp_value;
  bpen_prox := bmcp_prox;
  bpen_subdiff_distance := fun p => bscores (bmcp_score p)
|}.
End Block.
