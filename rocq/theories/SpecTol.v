(** Vocabulary for C96: tolerances, from the strictest to the loosest. *)
From Coq Require Import Reals.
From Verif Require Import Ops Arr XR MCd MHyper MEstimators.
Open Scope R_scope.

(** [t] is at least as strict as [t']: NaN, which no score is below, is the strictest *)
Definition stricter (t t' : xr) : Prop := t = NaN \/ xle t t' = true.
(** two settings which differ in the tolerance only (and perhaps in the budget and in printing,
    which are given by the call) *)
Definition same_but_tolerance (s s' : solver xr) : Prop :=
  s_ws_start_size s = s_ws_start_size s' /\ s_max_epochs s = s_max_epochs s' /\ s_K s = s_K s' /\ s_use_acceleration s = s_use_acceleration s'.
