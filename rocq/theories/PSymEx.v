(** Concrete instances for [PropSym]. *)
From Coq Require Import List ZArith Bool Arith Lia Reals Lra Permutation.
From Verif Require Import Ops Arr MUtils MDatasets MDatafits MDatafitsMT MPenalties MBlockPenalties MCd MBcd MHyper MEstimators XR IEEE PBase SpecSolve PStruct PLaws SpecLin SpecData SpecSym PData RSum PDataEx PRunsEx.
Import ListNotations.
Local Open Scope nat_scope.

(** swapping the first two of three rows, flipping the second of three columns *)
Definition exsg (i : nat) : nat := match i with 0 => 1 | 1 => 0 | i => i end.
Definition exs (j : nat) : R := if j =? 1 then (-1)%R else 1%R.
Lemma ex_perm : row_perm 3 exsg /\ exsg 0 = 1 /\ signs 3 exs /\ exs 1 = (-1)%R.
Proof.
  split; [unfold row_perm; simpl; apply perm_swap|]. split; auto. split; [|reflexivity].
  intros j _. unfold exs. destruct (j =? 1); auto.
Qed.
(** the CSC design of [PDataEx] with its first two rows swapped *)
Definition exE' (j : nat) : list (nat * R) :=
  match j with 0 => [(2, 3%R); (1, 1%R)] | 1 => [(0, (-2)%R)] | _ => [] end.
Definition exC' : csc xr := Csc [Fin 3; Fin 1; Fin (-2)] [2; 1; 0]%Z [0; 2; 3; 3]%Z.
Lemma ex_csc' : csc_of 3 3 exE' exC' /\ no_repeats 3 exE' /\ forall i j, i < 3 -> j < 3 -> entry exE' i j = entry exE (exsg i) j.
Proof.
  split; [split; [reflexivity|]|].
  - intros j Hj. destruct j as [|[|[|j]]]; [| | |lia]; (split; [|simpl; intros e He; repeat (destruct He as [<-|He]; [simpl; lia|]); destruct He]).
    + exists 0%nat. split; [reflexivity|]. split; [reflexivity|]. intros [|[|[|k]]] e; simpl; intros [= <-]; auto.
    + exists 2%nat. split; [reflexivity|]. split; [reflexivity|]. intros [|[|[|k]]] e; simpl; intros [= <-]; auto.
    + exists 3%nat. split; [reflexivity|]. split; [reflexivity|]. intros [|k] e; simpl; discriminate.
  - split.
    + intros j Hj. destruct j as [|[|[|j]]]; [| | |lia]; simpl; repeat constructor; simpl; intuition lia.
    + intros i j Hi Hj. destruct i as [|[|[|i]]]; [| | |lia]; destruct j as [|[|[|j]]]; try lia; unfold entry, Rsum; simpl; lra.
Qed.

(** *** sign flips with extrapolation, in doubles *)
Definition flX : mat f64 := Mat 2 2 (map (map f64_of) [[1; 0]; [2; -2]]%Z).
Definition neg_head (r : list f64) : list f64 := match r with a :: t => fneg ops64 a :: t | [] => [] end.
Definition flX' : mat f64 := Mat 2 2 (map neg_head (mrows flX)).
Definition fly : targets f64 := T1 (map f64_of [-3; 3]%Z).
Definition flpr : params f64 := Params (flit ops64 1 2) (f0 ops64) 1 3 2 (flit ops64 1 1000) 2 true false.
Definition head_of (r : res (result (list f64) (estimator_error f64))) : option f64 :=
  match r with Ret (Ok (x :: _)) => Some x | _ => None end.
Lemma flip_refuted : exists pr : params f64, exists X X' y, exists x x',
  mrows X' = map neg_head (mrows X) /\
  head_of (fit_unchecked (lasso_check_ref ops64) (lasso_fit_dense ops64 srt64) pr (Dataset X y)) = Some x /\
  head_of (fit_unchecked (lasso_check_ref ops64) (lasso_fit_dense ops64 srt64) pr (Dataset X' y)) = Some x' /\
  flt ops64 (fadd ops64 (fabs ops64 x') (flit ops64 1 2)) (fabs ops64 x) = true.
Proof.
  exists flpr, flX, flX', fly.
  set (h := head_of (fit_unchecked (lasso_check_ref ops64) (lasso_fit_dense ops64 srt64) flpr (Dataset flX fly))).
  set (h' := head_of (fit_unchecked (lasso_check_ref ops64) (lasso_fit_dense ops64 srt64) flpr (Dataset flX' fly))).
  assert (E : match h, h' with Some x, Some x' => flt ops64 (fadd ops64 (fabs ops64 x') (flit ops64 1 2)) (fabs ops64 x) | _, _ => false end = true) by (vm_compute; reflexivity).
  destruct h as [x|]; [|discriminate]. destruct h' as [x'|]; [|discriminate]. exists x, x'. split; [reflexivity|auto].
Qed.

(** *** one task elastic net: the multi-task fit stops at zero, the single-task fit does not *)
Definition oneX : mat f64 := Mat 1 1 [[f1 ops64]].
Definition oney : targets f64 := T1 [flit ops64 1 2].
Definition onepr : params f64 := Params (flit ops64 3 10) (f1 ops64) 50 1000 10 (flit ops64 1 1000000) 5 false false.
Lemma enet_one_task_refuted : exists pr X y w,
  fit_unchecked (elastic_net_check_ref ops64) (elastic_net_fit_dense ops64 srt64) pr (Dataset X y) = Ret (Ok [w]) /\
  flt ops64 (flit ops64 1 10) w = true /\
  fit_unchecked (mt_elastic_net_check_ref ops64) (mt_elastic_net_fit_dense ops64 srt64) pr (Dataset X y) = Ret (Ok (column [f0 ops64])).
Proof.
  exists onepr, oneX, oney.
  set (h := fit_unchecked (elastic_net_check_ref ops64) (elastic_net_fit_dense ops64 srt64) onepr (Dataset oneX oney)).
  assert (E : match h with Ret (Ok [x]) => flt ops64 (flit ops64 1 10) x | _ => false end = true) by (vm_compute; reflexivity).
  destruct h as [[[|x [|x2 w]]|]|]; try discriminate. exists x. split; [reflexivity|]. split; [exact E|]. vm_compute. reflexivity.
Qed.
