(** Specification vocabulary for hyperparameters: what "the first offending field" means, and
    what a sequence of setter calls should leave in each field.  Independent of the model's
    control flow. *)
From Coq Require Import List ZArith Reals.
From Verif Require Import Ops MHyper MEstimators.
Import ListNotations.

(** the first rule (in order) whose condition holds, if any *)
Inductive first_violation {E : Type} : list (Prop * E) -> option E -> Prop :=
| fv_none : first_violation [] None
| fv_hit (P : Prop) e rest : P -> first_violation ((P, e) :: rest) (Some e)
| fv_skip (P : Prop) e rest r : ~ P -> first_violation rest r -> first_violation ((P, e) :: rest) r.

Definition error_of {A E} (r : result A E) : option E :=
  match r with Ok _ => None | Err e => Some e end.

(** documented conditions, in the documented order *)
Section Rules.
Context {F : Type} (o : FOps F) (p : params F).
Definition alpha_rule : Prop * estimator_error F :=
  (fisneg o (p_alpha p) = true, InvalidRegularization (p_alpha p)).
Definition common_rules : list (Prop * estimator_error F) :=
  [ (fisneg o (p_tolerance p) = true, InvalidTolerance (p_tolerance p));
    (p_K p = 0, InvalidK (p_K p));
    (p_ws_start_size p = 0, InvalidWSSize (p_ws_start_size p)) ].
Definition lasso_rules := alpha_rule :: common_rules.
Definition mcp_rules :=
  alpha_rule :: (flt o (p_shape p) (f1 o) = true, InvalidGamma (p_shape p)) :: common_rules.
Definition enet_rules :=
  alpha_rule :: (flt o (f1 o) (p_shape p) = true \/ flt o (p_shape p) (f0 o) = true,
                 InvalidL1Ratio (p_shape p)) :: common_rules.
End Rules.

(** a sequence of setter calls *)
Inductive setter (F : Type) : Type :=
| SAlpha (a : F) | SShape (s : F) | SMaxIter (n : nat) | SMaxEpochs (n : nat) | SWs (n : nat)
| STol (t : F) | SK (n : nat) | SAccel (b : bool) | SVerbose (b : bool).
Arguments SAlpha {F}. Arguments SShape {F}. Arguments SMaxIter {F}. Arguments SMaxEpochs {F}.
Arguments SWs {F}. Arguments STol {F}. Arguments SK {F}. Arguments SAccel {F}. Arguments SVerbose {F}.

(** value of the last call of one setter, or the given default *)
Fixpoint last_call {F V} (sel : setter F -> option V) (l : list (setter F)) (dflt : V) : V :=
  match l with
  | [] => dflt
  | c :: l' => last_call sel l' (match sel c with Some v => v | None => dflt end)
  end.
Definition call {F} (c : setter F) (p : params F) : params F :=
  match c with
  | SAlpha a => set_alpha a p | SShape s => set_shape s p | SMaxIter n => set_max_iterations n p
  | SMaxEpochs n => set_max_epochs n p | SWs n => set_ws_start_size n p | STol t => set_tolerance t p
  | SK n => set_K n p | SAccel b => set_use_acceleration b p | SVerbose b => set_verbose b p
  end.
Definition solver_call {F} (c : setter F) (s : solver F) : solver F :=
  match c with
  | SMaxIter n => solver_max_iterations n s
  | SMaxEpochs n => solver_max_epochs n s | SWs n => solver_ws_start_size n s
  | STol t => solver_tolerance t s
  | SK n => solver_K n s | SAccel b => solver_use_acceleration b s | SVerbose b => solver_verbose b s
  | SAlpha _ | SShape _ => s
  end.
Definition calls {F} (l : list (setter F)) (p : params F) : params F :=
  fold_left (fun p c => call c p) l p.
Definition solver_calls {F} (l : list (setter F)) (s : solver F) : solver F :=
  fold_left (fun s c => solver_call c s) l s.
