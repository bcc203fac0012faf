(** Concrete instances of the hypotheses used in [PropData]. *)
From Coq Require Import List ZArith Bool Arith Reals Lra Lia.
From Verif Require Import Ops Arr MDatasets XR PBase RSum SpecLin SpecData SpecDatafit PDataProps.
Import ListNotations.
Open Scope R_scope.

(** rows unsorted in column 0, an explicit zero in column 1, column 2 empty *)
Definition exE (j : nat) : list (nat * R) :=
  match j with 0%nat => [(2%nat, 3); (0%nat, 1)] | 1%nat => [(1%nat, -2); (0%nat, 0)] | _ => [] end.
Definition exC : csc xr := Csc [Fin 3; Fin 1; Fin (-2); Fin 0] [2; 0; 1; 0]%Z [0; 2; 4; 4]%Z.
Lemma ex_csc : csc_of 3 3 exE exC /\ no_repeats 3 exE /\ entry exE 2 0 = 3 /\ entry exE 1 1 = -2 /\ entry exE 0 2 = 0.
Proof.
  split; [split; [reflexivity|]|].
  - intros j Hj. destruct j as [|[|[|j]]]; [| | |lia]; (split; [|simpl; intros e He; repeat (destruct He as [<-|He]; [simpl; lia|]); destruct He]).
    + exists 0%nat. split; [reflexivity|]. split; [reflexivity|]. intros [|[|[|k]]] e; simpl; intros [= <-]; auto.
    + exists 2%nat. split; [reflexivity|]. split; [reflexivity|]. intros [|[|[|k]]] e; simpl; intros [= <-]; auto.
    + exists 4%nat. split; [reflexivity|]. split; [reflexivity|]. intros [|k] e; simpl; discriminate.
  - split.
    + intros j Hj. destruct j as [|[|[|j]]]; [| | |lia]; simpl; repeat constructor; simpl; intuition lia.
    + unfold entry, Rsum. simpl. lra.
Qed.
Lemma ex_target : single_target_of 3 (fun i => INR i - 1) (T1 (xv 3 (fun i => INR i - 1))) /\
  single_target_of 3 (fun i => INR i - 1) (T2 (xm 3 1 (fun i _ => INR i - 1))) /\
  multi_target_of 3 2 (fun i t => INR i - INR t) (T2 (xm 3 2 (fun i t => INR i - INR t))) /\
  (forall i, (i < 3)%nat -> Rabs (INR i - 1) <= 1).
Proof.
  split; [left; reflexivity|]. split; [right; reflexivity|]. split; [left; reflexivity|]. intros i Hi.
  destruct i as [|[|[|i]]]; [| | |lia]; simpl; apply Rabs_le; lra.
Qed.
(** a run of three changes, two of them on the same coefficient *)
Lemma ex_updates : let us := [(0%nat, 2); (2%nat, -1); (0%nat, 1)] in
  (forall u, In u us -> (fst u < 3)%nat) /\ fold_left bump us (fun _ => 0) 0%nat = 3 /\ fold_left bump us (fun _ => 0) 2%nat = -1.
Proof.
  split; [intros u Hu; repeat (destruct Hu as [<-|Hu]; [simpl; lia|]); destruct Hu|].
  unfold bump. simpl. lra.
Qed.
Lemma ex_support : NoDup [2%nat; 0%nat] /\ (forall j, In j [2%nat; 0%nat] -> (j < 3)%nat) /\
  (forall j, (j < 3)%nat -> ~ In j [2%nat; 0%nat] -> (if (j =? 1)%nat then 0 else 5) = 0).
Proof.
  split; [repeat constructor; simpl; intuition lia|]. split; [simpl; intuition lia|].
  intros j Hj Hn. destruct j as [|[|[|j]]]; simpl in *; try lia; try tauto; reflexivity.
Qed.
