(** Vocabulary for statements about the storage of sparse designs and the labels of samples; any arithmetic. *)
From Coq Require Import List Arith ZArith.
From Verif Require Import Ops Arr MUtils MDatasets MDatafits MDatafitsMT MPenalties MBlockPenalties MCd MBcd.
Import ListNotations.

(** a CSC array with [p] columns over [n] rows whose column [j] stores the (row, value) pairs [cs j] in this order;
    the two arrays may hold anything before the first column and after the last *)
Definition holds {F} (n p : nat) (cs : nat -> list (nat * F)) (c : csc F) : Prop :=
  length (cindptr c) = S p /\ forall j, j < p ->
    (exists lo, nth_error (cindptr c) j = Some (Z.of_nat lo) /\ nth_error (cindptr c) (S j) = Some (Z.of_nat (lo + length (cs j))) /\
      forall k e, nth_error (cs j) k = Some e -> nth_error (cindices c) (lo + k) = Some (Z.of_nat (fst e)) /\ nth_error (cdata c) (lo + k) = Some (snd e)) /\
    forall e, In e (cs j) -> fst e < n.
(** [s] gives the [n] samples new labels *)
Definition relabels (n : nat) (s : nat -> nat) : Prop :=
  (forall i, i < n -> s i < n) /\ forall i k, i < n -> k < n -> s i = s k -> i = k.
Definition relabelled {F} (s : nat -> nat) (cs : nat -> list (nat * F)) (j : nat) : list (nat * F) := map (fun e => (s (fst e), snd e)) (cs j).
(** [l'] lists the same [n] items under the new labels *)
Definition moved {A} (n : nat) (s : nat -> nat) (l l' : list A) : Prop :=
  length l = n /\ length l' = n /\ forall i, i < n -> nth_error l' (s i) = nth_error l i.

(** coordinate updates with a datafit that was never initialised: nothing happens for the first feature, every other one panics *)
Definition no_update {F DM D} (o : FOps F) (dm : DesignMatrix F DM) (df : Datafit F DM D) : Prop := forall P (pen : Penalty F P) ds q s,
  (forall j, cd_step o dm df pen ds (df_new df) q s (S j) = Panic POob) /\ (feq o (f0 o) (f0 o) = true -> cd_step o dm df pen ds (df_new df) q s 0 = Ret s).
Definition no_update_mt {F DM D} (o : FOps F) (dm : DesignMatrix F DM) (df : DatafitMT F DM D) : Prop := forall P (pen : PenaltyMT F P) ds q s,
  (forall j, bcd_step o dm df pen ds (dfm_new df) q s (S j) = Panic POob) /\ (feq o (f0 o) (f0 o) = true -> bcd_step o dm df pen ds (dfm_new df) q s 0 = Ret s).
