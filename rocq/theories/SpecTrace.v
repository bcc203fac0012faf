(** Vocabulary for statements about the course of a single-task run: states are pairs of coefficients
    and maintained fit. *)
From Coq Require Import List Arith.
From Verif Require Import Ops Arr MDatasets MDatafits MPenalties MCd.
Import ListNotations.

Section Trace.
Context {F DM D P : Type} (o : FOps F) (dm : DesignMatrix F DM) (df : Datafit F DM D) (pen : Penalty F P).
Context (ds : dataset DM F) (d : D) (q : P) (p n : nat).
Definition state : Type := list F * list F.

(** no coefficient is selected *)
Definition zero_state : state := (repeat (f0 o) p, repeat (f0 o) n).
(** coefficients outside [ws] are zero, and the fit has been computed from the coefficients in [ws] *)
Definition recomputed (s : state) : Prop :=
  exists ws, NoDup ws /\ length ws <= p /\ length (fst s) = p /\
    (forall j, ~ In j ws -> nth j (fst s) (f0 o) = f0 o) /\ dm_extrap dm (design_matrix ds) ws (fst s) n = Ret (snd s).
(** [s'] is reached by at most [N] coordinate updates from [s], or from a recomputed state *)
Definition leg (N : nat) (s s' : state) : Prop :=
  exists s0 js, (s0 = s \/ recomputed s0) /\ length js <= N /\
    foldM (cd_step o dm df pen ds d q) js s0 = Ret s'.
(** the stopping test on all features: largest violation against [tol] *)
Definition tested (tol : F) (b : bool) (s : state) : Prop :=
  exists scores worst, opt_cond_violation df pen ds (fst s) (snd s) (seq 0 p) d q = Ret (scores, worst) /\ fle o worst tol = b.
(** [k] rounds, each from a state that fails the test, of at most [N] updates each *)
Inductive rounds (tol : F) (N : nat) : nat -> state -> state -> Prop :=
| rounds_none s : rounds tol N 0 s s
| rounds_more k s s1 s' : tested tol false s -> leg N s s1 -> rounds tol N k s1 s' -> rounds tol N (S k) s s'.
End Trace.

(** the penalty returns one score per feature asked for *)
Definition one_score_each {F P} (pen : Penalty F P) (q : P) : Prop :=
  forall w g ws sc m, length g = length ws -> pen_subdiff_distance pen q w g ws = Ret (sc, m) -> length sc = length ws.
