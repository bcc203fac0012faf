(** Vocabulary for the stopping criteria of the multi-task elastic net and Block MCP, and for
    comparing two fitted models. *)
From Coq Require Import List Arith Reals.
From Verif Require Import Ops Arr MHyper MEstimators XR SpecPen RSum SpecLin SpecData SpecOpt.
Import ListNotations.
Open Scope R_scope.

(** from some budget on, every fit returns coefficients satisfying [Q] (possibly different ones) *)
Definition eventually_mt {E} (p T : nat) (Q : rmat -> Prop) (fit : nat -> res (result (mat xr) E)) : Prop :=
  exists N, forall m, (N <= m)%nat -> exists W, fit m = Ret (Ok (xm p T W)) /\ Q W.

Section Criteria.
Variables (tol : R) (loss : rmat -> R) (p T : nat) (X : rmat) (pen : list R -> R) (W : rmat).
Definition zero_row (j : nat) : Prop := forall t, (t < T)%nat -> W j t = 0.
Definition loss_gradient (j : nat) (g : nat -> R) : Prop :=
  forall t, (t < T)%nat -> derivable_pt_lim (fun s => loss (lin_mt p X (set2 W j t s))) (W j t) (g t).
Definition small_violation (j : nat) : Prop := exists d, violation_mt loss p T X pen W j d /\ d <= tol.
(** elastic net, [c] the weight of the row norm: on zero rows the squared gradient norm is compared *)
Definition enet_mt_criterion (c : R) : Prop := forall j, (j < p)%nat ->
  (zero_row j -> exists g, loss_gradient j g /\ Sum T (fun t => g t ^ 2) <= c + tol) /\ (~ zero_row j -> small_violation j).
(** Block MCP: on rows of norm between 0 and [a * gm] the gradient is not looked at *)
Definition block_mcp_criterion (a gm : R) : Prop := forall j, (j < p)%nat ->
  let r := norm2 (map (W j) (seq 0 T)) in
  (0 < r < a * gm -> a - r / gm <= tol) /\ (r = 0 \/ a * gm <= r -> small_violation j).
End Criteria.
