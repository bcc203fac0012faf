(** Vocabulary for statements about the course of a multi-task run: states are pairs of coefficients
    and maintained fit. *)
From Coq Require Import List Arith.
From Verif Require Import Ops Arr MDatasets MDatafitsMT MBlockPenalties MBcd SpecSolve.
Import ListNotations.

Section Trace.
Context {F DM D P : Type} (o : FOps F) (dm : DesignMatrix F DM) (df : DatafitMT F DM D) (pen : PenaltyMT F P).
Context (ds : dataset DM F) (d : D) (q : P) (p n T : nat).
Definition state_mt : Type := mat F * mat F.

(** a matrix of zeros *)
Definition null_mat (r c : nat) : mat F := Mat r c (repeat (repeat (f0 o) c) r).
(** no coefficient is selected *)
Definition zero_state_mt : state_mt := (null_mat p T, null_mat n T).
(** rows outside [ws] are zero, and the fit has been computed from the rows in [ws] *)
Definition recomputed_mt (s : state_mt) : Prop :=
  exists ws, NoDup ws /\ length ws <= p /\ shaped p T (fst s) /\
    (forall j, j < p -> ~ In j ws -> nth_error (mrows (fst s)) j = Some (repeat (f0 o) T)) /\
    dm_extrap_mt dm (design_matrix ds) ws (fst s) n T = Ret (snd s).
(** [s'] is reached by at most [N] row updates from [s], or from a recomputed state *)
Definition leg_mt (N : nat) (s s' : state_mt) : Prop :=
  exists s0 js, (s0 = s \/ recomputed_mt s0) /\ length js <= N /\
    foldM (bcd_step o dm df pen ds d q) js s0 = Ret s'.
(** the stopping test on all features: largest violation against [tol] *)
Definition tested_mt (tol : F) (b : bool) (s : state_mt) : Prop :=
  exists scores worst, opt_cond_violation_mt df pen ds (fst s) (snd s) (seq 0 p) d q = Ret (scores, worst) /\ fle o worst tol = b.
(** [k] rounds, each from a state that fails the test, of at most [N] updates each *)
Inductive rounds_mt (tol : F) (N : nat) : nat -> state_mt -> state_mt -> Prop :=
| rounds_mt_none s : rounds_mt tol N 0 s s
| rounds_mt_more k s s1 s' : tested_mt tol false s -> leg_mt N s s1 -> rounds_mt tol N k s1 s' -> rounds_mt tol N (S k) s s'.
End Trace.

(** the penalty returns one score per feature asked for *)
Definition one_score_each_mt {F P} (pen : PenaltyMT F P) (q : P) : Prop :=
  forall W g ws sc m, length (mrows g) = length ws -> bpen_subdiff_distance pen q W g ws = Ret (sc, m) -> length sc = length ws.
