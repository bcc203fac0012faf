(** A double-precision multi-task run, for the theorem on the course of a run. *)
From Coq Require Import List ZArith Bool Arith Lia.
From Flocq Require Import Core BinarySingleNaN.
From Verif Require Import Ops Arr IEEE SpecSolve SpecTraceMT PRoundEx PRunsEx PNullEx2 PTraceEx MUtils MDatasets MDatafitsMT MBlockPenalties MCd MBcd MHyper MEstimators.
Import ListNotations.

Definition rY : targets f64 := T2 (Mat 3 2 (map (map f64_of) [[3; 1]; [-1; 0]; [4; -2]]%Z)).
Definition same_mat (a b : mat f64) : bool := (mnr a =? mnr b) && (mnc a =? mnc b) && (length (mrows a) =? length (mrows b)) && forallb (fun xy => same (fst xy) (snd xy)) (combine (mrows a) (mrows b)).
Lemma same_mat_eq a b : same_mat a b = true -> a = b.
Proof.
  unfold same_mat. intros H. apply andb_true_iff in H as [H H4]. apply andb_true_iff in H as [H H3]. apply andb_true_iff in H as [H1 H2]. apply Nat.eqb_eq in H1, H2, H3.
  destruct a as [r c l], b as [r' c' l']. cbn [mnr mnc mrows] in *. subst r' c'. f_equal. revert l' H3 H4. induction l as [|x l IH]; intros [|y l'] H3 H4; try discriminate; [reflexivity|].
  cbn [combine forallb fst snd] in H4. apply andb_true_iff in H4 as [H4 H5]. apply same_eq in H4. subst y. f_equal. apply IH; [injection H3; auto|exact H5].
Qed.
Section G.
Context {DM : Type} (dm : DesignMatrix f64 DM) (df : DatafitMT f64 DM (quadratic_mt f64)) (X : DM).
Local Notation ds := (Dataset X rY).
Definition msolver : solver f64 := Solver 10 5 2 (tenth 1) 2 false false.
Definition rows_mt : list nat := [0; 1; 0; 1]%nat.
Definition test_mt (d : quadratic_mt f64) (b : bool) (s : mat f64 * mat f64) : bool :=
  match opt_cond_violation_mt df (l21_penalty ops64) ds (fst s) (snd s) (seq 0 2) d (L21 (f1 ops64)) with Ret (_, worst) => eqb (fle ops64 worst (tenth 1)) b | _ => false end.
Definition okrun_mt : bool :=
  match dfm_initialize df (quadratic_mt_new ops64) ds, solve_multi_task ops64 srt64 dm df (l21_penalty ops64) msolver ds (quadratic_mt_new ops64) (L21 (f1 ops64)) with
  | Ret d, Ret W => match foldM (bcd_step ops64 dm df (l21_penalty ops64) ds d (L21 (f1 ops64))) rows_mt (zero_state_mt ops64 2 3 2) with
      | Ret s => same_mat (fst s) W && any_nonzero ops64 (nth 0 (mrows W) []) && test_mt d false (zero_state_mt ops64 2 3 2) && test_mt d true s
      | _ => false end
  | _, _ => false end.
Definition run_example_mt : Prop := exists d W XW, dfm_initialize df (quadratic_mt_new ops64) ds = Ret d /\
  solve_multi_task ops64 srt64 dm df (l21_penalty ops64) msolver ds (quadratic_mt_new ops64) (L21 (f1 ops64)) = Ret W /\ any_nonzero ops64 (nth 0 (mrows W) []) = true /\
  foldM (bcd_step ops64 dm df (l21_penalty ops64) ds d (L21 (f1 ops64))) rows_mt (zero_state_mt ops64 2 3 2) = Ret (W, XW) /\
  rounds_mt ops64 dm df (l21_penalty ops64) ds d (L21 (f1 ops64)) 2 3 2 (tenth 1) (2 * 2) 1 (zero_state_mt ops64 2 3 2) (W, XW) /\
  tested_mt ops64 df (l21_penalty ops64) ds d (L21 (f1 ops64)) 2 (tenth 1) true (W, XW).
Lemma test_mt_ok d b s : test_mt d b s = true -> tested_mt ops64 df (l21_penalty ops64) ds d (L21 (f1 ops64)) 2 (tenth 1) b s.
Proof. unfold test_mt, tested_mt. destruct (opt_cond_violation_mt _ _ _ _ _ _ _ _) as [[sc w]|]; [|discriminate]. intros H. apply eqb_prop in H. exists sc, w. auto. Qed.
Lemma okrun_mt_ex : okrun_mt = true -> run_example_mt.
Proof.
  unfold okrun_mt, run_example_mt. destruct (dfm_initialize _ _ _) as [d|]; [|discriminate]. destruct (solve_multi_task _ _ _ _ _ _ _ _ _) as [W|]; [|discriminate]. destruct (foldM _ _ _) as [[W1 XW]|] eqn:EF; [|discriminate]. cbn [fst snd].
  intros H. apply andb_true_iff in H as [H H4]. apply andb_true_iff in H as [H H3]. apply andb_true_iff in H as [H1 H2]. apply same_mat_eq in H1. subst W1. apply test_mt_ok in H3, H4.
  exists d, W, XW. split; [reflexivity|]. split; [reflexivity|]. split; [exact H2|]. split; [exact EF|]. split; [|exact H4].
  apply rounds_mt_more with (W, XW); [exact H3| |apply rounds_mt_none]. exists (zero_state_mt ops64 2 3 2), rows_mt. split; [left; reflexivity|]. split; [apply le_n|exact EF].
Qed.
End G.
Lemma okrun_mt_dense : okrun_mt (dense_dm ops64) (qmt_dense ops64) rX = true. Proof. vm_compute. reflexivity. Qed.
Lemma okrun_mt_sparse : okrun_mt (sparse_dm ops64) (qmt_sparse ops64) rC = true. Proof. vm_compute. reflexivity. Qed.
