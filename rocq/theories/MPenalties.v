(** Model of [src/penalties/separable/mod.rs]. *)
From Coq Require Import List ZArith Bool Arith.
From Verif Require Import Ops Arr MUtils.
Import ListNotations.

(** separable/mod.rs 11-34: the Penalty trait *)
Record Penalty (F P : Type) : Type := {
  pen_value : P -> list F -> F;
  pen_prox : P -> F -> F -> F;
  pen_subdiff_distance : P -> list F -> list F -> list nat -> res (list F * F)
}.
Arguments pen_value {F P}. Arguments pen_prox {F P}. Arguments pen_subdiff_distance {F P}.

(** 42-44, 95-98, 159-162, 242-244 *)
Record l1 (F : Type) : Type := L1 { l1_alpha : F }.
Record l1l2 (F : Type) : Type := L1PlusL2 { en_alpha : F; en_l1_ratio : F }.
Record mcp (F : Type) : Type := MCP { mcp_alpha : F; mcp_gamma : F }.
Record l05 (F : Type) : Type := L05 { l05_alpha : F }.
Arguments L1 {F}. Arguments l1_alpha {F}.
Arguments L1PlusL2 {F}. Arguments en_alpha {F}. Arguments en_l1_ratio {F}.
Arguments MCP {F}. Arguments mcp_alpha {F}. Arguments mcp_gamma {F}.
Arguments L05 {F}. Arguments l05_alpha {F}.

Section Separable.
Context {F : Type} (o : FOps F).
Local Notation "x + y" := (fadd o x y).
Local Notation "x - y" := (fsub o x y).
Local Notation "x * y" := (fmul o x y).
Local Notation "x / y" := (fdiv o x y).

(** the shape shared by the [subdiff_distance] methods, e.g. 75-85: one score per
    (gradient, feature) pair, then the NaN-ignoring maximum *)
Definition scores (score : F -> F -> F) (w grad : list F) (ws : list nat) : res (list F * F) :=
  d <- mapM (fun p => wj <- vget w (snd p) ;; Ret (score wj (fst p))) (combine grad ws) ;;
  Ret (d, fold_max o (fninf o) d).

(** *** L1 *)

(** 55-57 *)
Definition l1_value (p : l1 F) (w : list F) : F :=
  l1_alpha p * isum o (map (fabs o) w).

(** 60-62 *)
Definition l1_prox (p : l1 F) (value stepsize : F) : F :=
  soft_thresholding o value (l1_alpha p * stepsize).

(** 78-81 *)
Definition l1_score (p : l1 F) (wj grad : F) : F :=
  if feq o wj (f0 o) then fmax o (f0 o) (fabs o grad - l1_alpha p)
  else fabs o (fneg o grad - fsignum o wj * l1_alpha p).

Definition l1_penalty : Penalty F (l1 F) := {|
  pen_value := l1_value;
  pen_prox := l1_prox;
  pen_subdiff_distance := fun p => scores (l1_score p)
|}.

(** *** L1PlusL2 *)

(** 113-117 *)
Definition l1l2_value (p : l1l2 F) (w : list F) : F :=
  en_alpha p * (en_l1_ratio p * isum o (map (fabs o) w)
                + flit o 1 2 * (f1 o - en_l1_ratio p) * ndot o w w).

(** 120-123 *)
Definition l1l2_prox (p : l1l2 F) (value stepsize : F) : F :=
  soft_thresholding o value (en_l1_ratio p * en_alpha p * stepsize)
  / (f1 o + stepsize * (f1 o - en_l1_ratio p) * en_alpha p).

(** 140-146 *)
Definition l1l2_score (p : l1l2 F) (wj grad : F) : F :=
  if feq o wj (f0 o) then fmax o (f0 o) (fabs o grad - en_alpha p * en_l1_ratio p)
  else fabs o (fneg o grad
               - en_alpha p * (fsignum o wj * en_l1_ratio p + (f1 o - en_l1_ratio p) * wj)).

Definition l1l2_penalty : Penalty F (l1l2 F) := {|
  pen_value := l1l2_value;
  pen_prox := l1l2_prox;
  pen_subdiff_distance := fun p => scores (l1l2_score p)
|}.

(** *** MCP *)

(** 182-185 *)
Definition mcp_pen1 (p : mcp F) (wj : F) : F :=
  if flt o (fabs o wj) (mcp_gamma p * mcp_alpha p)
  then mcp_alpha p * fabs o wj - sq o wj / (flit o 2 1 * mcp_gamma p)
  else mcp_gamma p * sq o (mcp_alpha p) / flit o 2 1.

(** 179-187 *)
Definition mcp_value (p : mcp F) (w : list F) : F := isum o (map (mcp_pen1 p) w).

(** 195-205 *)
Definition mcp_prox (p : mcp F) (value stepsize : F) : F :=
  let tau := mcp_alpha p * stepsize in
  let g := mcp_gamma p / stepsize in
  if fle o (fabs o value) tau then f0 o
  else if flt o (g * tau) (fabs o value) then value
  else fsignum o value * (fabs o value - tau) / (f1 o - f1 o / g).

(** 221-229 *)
Definition mcp_score (p : mcp F) (wj grad : F) : F :=
  if feq o wj (f0 o) then fmax o (f0 o) (fabs o grad - mcp_alpha p)
  else if flt o (fabs o wj) (mcp_alpha p * mcp_gamma p)
  then fabs o (grad + mcp_alpha p * fsignum o wj - wj / mcp_gamma p)
  else fabs o grad.

Definition mcp_penalty : Penalty F (mcp F) := {|
  pen_value := mcp_value;
  pen_prox := mcp_prox;
  pen_subdiff_distance := fun p => scores (mcp_score p)
|}.

(** *** L05 *)

(** 257-259 *)
Definition l05_value (p : l05 F) (w : list F) : F :=
  l05_alpha p * nsum o (map (fun wj => fsqrt o (fabs o wj)) w).

(** 262-264 *)
Definition l05_prox (p : l05 F) (value stepsize : F) : F :=
  prox_05 o value (stepsize * l05_alpha p).

(** 271-278 *)
Definition l05_subdiff_distance (_ : l05 F) (_ _ : list F) (ws : list nat) : res (list F * F) :=
  Ret (vzeros o (length ws), f0 o).

Definition l05_penalty : Penalty F (l05 F) := {|
  pen_value := l05_value;
  pen_prox := l05_prox;
  pen_subdiff_distance := l05_subdiff_distance
|}.
End Separable.
