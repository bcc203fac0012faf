(** Closed form of penalised least squares when the columns of the design matrix are orthogonal. *)
From Coq Require Import List Arith Reals.
From Verif Require Import Ops Arr XR SpecPen RSum SpecLin SpecData SpecOpt.
Open Scope R_scope.

Definition orthogonal (n p : nat) (X : rmat) : Prop := forall j k, (j < p)%nat -> (k < p)%nat -> j <> k -> Sum n (fun i => X i j * X i k) = 0.
(** [L]: mean square of the column, [r]: size of its mean product with the targets *)
Definition shrunk (k : single_pen) (L r : R) : R :=
  match k with
  | LassoPen a => Rmax 0 (r - a) / L
  | EnetPen a q => Rmax 0 (r - a * q) / (L + a * (1 - q))
  | McpPen a g => if Rle_dec r (a * g * L) then Rmax 0 (r - a) / (L - 1 / g) else r / L
  end.
(** zero for zero columns: there the first factor is zero *)
Definition closed_form (k : single_pen) (n : nat) (X : rmat) (y : nat -> R) (j : nat) : R :=
  let rho := Sum n (fun i => X i j * y i) / INR n in rho / Rabs rho * shrunk k (Sum n (fun i => X i j ^ 2) / INR n) (Rabs rho).
(** the penalty as a function of the norm of a row *)
Definition of_norm (k : multi_pen) : single_pen :=
  match k with MtLassoPen a => LassoPen a | MtEnetPen a q => EnetPen a q | BlockMcpPen a g => McpPen a g end.
Definition closed_form_mt (k : multi_pen) (n T : nat) (X Y : rmat) (j t : nat) : R :=
  let rho := fun t => Sum n (fun i => X i j * Y i t) / INR n in
  let r := norm2 (map rho (seq 0 T)) in rho t / r * shrunk (of_norm k) (Sum n (fun i => X i j ^ 2) / INR n) r.
