(** Property C81 for multi-task runs: the course of a run, in any arithmetic. *)
From Coq Require Import List ZArith Bool Arith Lia.
From Verif Require Import Ops Arr MUtils MDatasets MDatafitsMT MBlockPenalties MCd MBcd MHyper MEstimators IEEE SpecSolve SpecTraceMT PTraceMT PTraceMTEx PRunsEx.
Import ListNotations.

(** any datafit, any penalty with one score per feature *)
Theorem C81_multitask_course_of_a_run F DM D P (o : FOps F) (dm : DesignMatrix F DM) (df : DatafitMT F DM D) (pen : PenaltyMT F P) srt ds d q s W p :
  valid_sort o srt -> one_score_each_mt pen q -> dm_n_features dm (design_matrix ds) = Ret p -> solve_multi_task o srt dm df pen s ds d q = Ret W ->
  let n := n_samples (dtargets ds) in let T := n_tasks (dtargets ds) in
  exists d' k XW, dfm_initialize df d ds = Ret d' /\ k <= s_max_iterations s /\
    rounds_mt o dm df pen ds d' q p n T (s_tolerance s) (s_max_epochs s * p) k (zero_state_mt o p n T) (W, XW) /\
    (k = s_max_iterations s \/ tested_mt o df pen ds d' q p (s_tolerance s) true (W, XW)).
Proof. exact (c81_mt o dm df pen srt ds d q s W p). Qed.
Print Assumptions C81_multitask_course_of_a_run.
Theorem C81_multitask_penalties F (o : FOps F) : (forall q, one_score_each_mt (l21_penalty o) q) /\ (forall q, one_score_each_mt (bl1l2_penalty o) q) /\ (forall q, one_score_each_mt (bmcp_penalty o) q).
Proof. exact (conj (one_l21 o) (conj (one_bl1l2 o) (one_bmcp o))). Qed.
Print Assumptions C81_multitask_penalties.
(** one round out of five suffices in doubles, and the model returned is not zero *)
Example C81_multitask_nonvacuous : valid_sort ops64 srt64 /\ s_max_iterations msolver = 5 /\ dm_n_features (dense_dm ops64) rX = Ret 2 /\ dm_n_features (sparse_dm ops64) rC = Ret 2 /\
  run_example_mt (dense_dm ops64) (qmt_dense ops64) rX /\ run_example_mt (sparse_dm ops64) (qmt_sparse ops64) rC.
Proof. exact (conj srt64_ok (conj eq_refl (conj eq_refl (conj eq_refl (conj (okrun_mt_ex _ _ _ okrun_mt_dense) (okrun_mt_ex _ _ _ okrun_mt_sparse)))))). Qed.
