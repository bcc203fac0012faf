(** Vocabulary for statements about changes of units and repeated samples. *)
From Coq Require Import List Arith Reals.
From Verif Require Import Ops Arr MUtils MEstimators XR SpecLin SpecOpt SpecOrth.
Import ListNotations.
Open Scope R_scope.

(** the order in which a sort returns the positions of NaN-free numbers depends on the outcomes
    of comparisons only *)
Definition by_comparison {F} (o : FOps F) (srt : list F -> list nat) : Prop :=
  forall l l', length l = length l' -> existsb (fisnan o) l = false -> existsb (fisnan o) l' = false ->
  (forall i j x y x' y', nth_error l i = Some x -> nth_error l j = Some y -> nth_error l' i = Some x' -> nth_error l' j = Some y' -> flt o x' y' = flt o x y) ->
  srt l' = srt l.

(** [X'] and [y'] are [X] and [y] in other units (features times [kap], targets times [c]), every sample taken [r] times *)
Definition rescaled_data (r n p : nat) (kap c : R) (X : rmat) (y : nat -> R) (X' : rmat) (y' : nat -> R) : Prop :=
  (forall i j, (i < r * n)%nat -> (j < p)%nat -> X' i j = kap * X (i mod n)%nat j) /\ (forall i, (i < r * n)%nat -> y' i = c * y (i mod n)%nat).
Definition rescaled_data_mt (r n p T : nat) (kap c : R) (X Y X' Y' : rmat) : Prop :=
  (forall i j, (i < r * n)%nat -> (j < p)%nat -> X' i j = kap * X (i mod n)%nat j) /\ (forall i t, (i < r * n)%nat -> (t < T)%nat -> Y' i t = c * Y (i mod n)%nat t).
(** the penalty in the new units *)
Definition rescaled_pen (kap c : R) (k k' : single_pen) : Prop :=
  match k, k' with
  | LassoPen a, LassoPen a' => a' = kap * c * a
  | EnetPen a q, EnetPen a' q' => a' * q' = kap * c * (a * q) /\ a' * (1 - q') = kap ^ 2 * (a * (1 - q))
  | McpPen a g, McpPen a' g' => a' = kap * c * a /\ g' = g / kap ^ 2
  | _, _ => False
  end.
(** several tasks; the elastic net is included only where the unit of the scores stays the same *)
Definition rescaled_pen_mt (kap c : R) (k k' : multi_pen) : Prop :=
  rescaled_pen kap c (of_norm k) (of_norm k') /\ match k with MtEnetPen _ _ => kap * c = 1 | _ => True end.
(** same settings, tolerance in the new units *)
Definition rescaled_settings (kap c : R) (s s' : solver xr) : Prop :=
  s_K s' = s_K s /\ s_ws_start_size s' = s_ws_start_size s /\ s_max_epochs s' = s_max_epochs s /\ s_use_acceleration s' = s_use_acceleration s /\
  exists tol, s_tolerance s = Fin tol /\ s_tolerance s' = Fin (kap * c * tol).
