(** Vocabulary for comparing fits with different regularisation levels, targets or column orders. *)
From Coq Require Import List Arith Reals Permutation.
From Verif Require Import Ops Arr MHyper MEstimators XR RSum SpecPen SpecLin SpecData SpecSolve SpecOpt SpecSym.
Import ListNotations.
Open Scope R_scope.

(** the same penalty at another regularisation level *)
Definition with_alpha (k : single_pen) (a : R) : single_pen := match k with LassoPen _ => LassoPen a | EnetPen _ r => EnetPen a r | McpPen _ g => McpPen a g end.
Definition with_alpha_mt (k : multi_pen) (a : R) : multi_pen := match k with MtLassoPen _ => MtLassoPen a | MtEnetPen _ r => MtEnetPen a r | BlockMcpPen _ g => BlockMcpPen a g end.
(** the penalty of a model at level 1: the (mixed) norm, for elastic nets together with the squares *)
Definition size (k : single_pen) (p : nat) (w : nat -> R) : R := Sum p (fun j => pen1 (with_alpha k 1) (w j)).
Definition size_mt (k : multi_pen) (p T : nat) (W : rmat) : R := Sum p (fun j => penT (with_alpha_mt k 1) (map (W j) (seq 0 T))).
(** sum of absolute differences of the coefficients, of norms of row differences *)
Definition gap (p : nat) (w v : nat -> R) : R := Sum p (fun j => Rabs (w j - v j)).
Definition gap_mt (p T : nat) (W V : rmat) : R := Sum p (fun j => norm2 (map (fun t => W j t - V j t) (seq 0 T))).
(** settings with which long runs reach the tolerance (see C27); [width] coefficients per feature *)
Definition patient (p width : nat) (s : solver xr) (tol : R) : Prop :=
  s_tolerance s = Fin tol /\ 0 < tol /\ (1 <= s_ws_start_size s)%nat /\ (1 <= s_max_epochs s)%nat /\
  calm_schedule (s_use_acceleration s) (s_K s) (s_max_epochs s) /\
  accel_safe (s_use_acceleration s) (s_K s) (Nat.min (s_ws_start_size s) p * width) (s_max_epochs s).
(** root mean square *)
Definition rms (n : nat) (f : nat -> R) : R := sqrt (Sum n (fun i => f i ^ 2) / INR n).
Definition rms_mt (n T : nat) (f : nat -> nat -> R) : R := sqrt (Sum n (fun i => Sum T (fun t => f i t ^ 2)) / INR n).
(** [s] rearranges the columns [0 .. p-1] *)
Definition col_perm (p : nat) (s : nat -> nat) : Prop := Permutation (map s (seq 0 p)) (seq 0 p).
(** correlation of a feature with the residuals (for the logistic loss: the weighted labels) *)
Definition correlation (l : single_loss) (n p : nat) (X : rmat) (y w : nat -> R) (j : nat) : R :=
  match l with
  | Squared => Sum n (fun i => X i j * (y i - lin p X w i)) / INR n
  | Logistic => Sum n (fun i => X i j * (y i / (1 + exp (y i * lin p X w i)))) / INR n
  end.
Definition correlation_mt (n p T : nat) (X Y W : rmat) (j : nat) : list R := map (fun t => Sum n (fun i => X i j * (Y i t - lin_mt p X W i t)) / INR n) (seq 0 T).
(** weight of half the squares *)
Definition l2_weight (k : single_pen) (b : R) : Prop := match k with LassoPen _ => b = 0 | EnetPen a r => b = a * (1 - r) | McpPen _ _ => False end.
