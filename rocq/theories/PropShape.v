(** Property theorem C58: datasets whose design matrix and targets have different sample counts
    (any float arithmetic). *)
From Coq Require Import List ZArith Bool Arith Lia Reals.
From Verif Require Import Ops Arr MUtils MDatasets MDatafits MDatafitsMT MPenalties MBlockPenalties MCd MBcd MHyper MEstimators XR IEEE SpecSolve SpecShape PLaws PRuns PRunsEx PMismatch PMismatchEx.
Import ListNotations.
Local Open Scope nat_scope.

(** a dense design with another number of rows: no estimator returns a model *)
Theorem C58_dense {F} (o : FOps F) (srt : list F -> list nat) n X t pr : target1_wf n t -> mnr X <> n ->
  refused PShape (lasso_check_ref o) pr (fit_unchecked (lasso_check_ref o) (lasso_fit_dense o srt) pr (Dataset X t)) /\
  refused PShape (elastic_net_check_ref o) pr (fit_unchecked (elastic_net_check_ref o) (elastic_net_fit_dense o srt) pr (Dataset X t)) /\
  refused PShape (mcp_check_ref o) pr (fit_unchecked (mcp_check_ref o) (mcp_fit_dense o srt) pr (Dataset X t)).
Proof. exact (mismatch_dense o srt n X t pr). Qed.
Print Assumptions C58_dense.
Theorem C58_dense_multitask {F} (o : FOps F) (srt : list F -> list nat) n T X t pr : target_wf n T t -> mnr X <> n ->
  refused PShape (mt_lasso_check_ref o) pr (fit_unchecked (mt_lasso_check_ref o) (mt_lasso_fit_dense o srt) pr (Dataset X t)) /\
  refused PShape (mt_elastic_net_check_ref o) pr (fit_unchecked (mt_elastic_net_check_ref o) (mt_elastic_net_fit_dense o srt) pr (Dataset X t)) /\
  refused PShape (block_mcp_check_ref o) pr (fit_unchecked (block_mcp_check_ref o) (block_mcp_fit_dense o srt) pr (Dataset X t)).
Proof. exact (mismatch_mt_dense o srt n T X t pr). Qed.
Print Assumptions C58_dense_multitask.
Theorem C58_dense_logistic {F} (o : FOps F) (srt : list F -> list nat) n p X t s : target1_wf n t -> mwf X -> mnc X = p -> 1 <= p -> 1 <= s_max_iterations s -> mnr X <> n ->
  (forall d q, solve o srt (dense_dm o) (log_dense o) (l1_penalty o) s (Dataset X t) d q = Panic PShape) /\
  (forall d q, solve o srt (dense_dm o) (log_dense o) (l1l2_penalty o) s (Dataset X t) d q = Panic PShape) /\
  (forall d q, solve o srt (dense_dm o) (log_dense o) (mcp_penalty o) s (Dataset X t) d q = Panic PShape).
Proof. exact (mismatch_logistic o srt n p X t s). Qed.
Print Assumptions C58_dense_logistic.
(** a compressed-column design with an entry in a row that has no sample *)
Theorem C58_sparse {F} (o : FOps F) (srt : list F -> list nat) n c t pr : target1_wf n t -> entry_outside n c ->
  refused POob (lasso_check_ref o) pr (fit_unchecked (lasso_check_ref o) (lasso_fit_sparse o srt) pr (Dataset c t)) /\
  refused POob (elastic_net_check_ref o) pr (fit_unchecked (elastic_net_check_ref o) (elastic_net_fit_sparse o srt) pr (Dataset c t)) /\
  refused POob (mcp_check_ref o) pr (fit_unchecked (mcp_check_ref o) (mcp_fit_sparse o srt) pr (Dataset c t)).
Proof. exact (mismatch_sparse o srt n c t pr). Qed.
Print Assumptions C58_sparse.
Theorem C58_sparse_multitask {F} (o : FOps F) (srt : list F -> list nat) n T c t pr : target_wf n T t -> 1 <= T -> entry_outside n c ->
  refused POob (mt_lasso_check_ref o) pr (fit_unchecked (mt_lasso_check_ref o) (mt_lasso_fit_sparse o srt) pr (Dataset c t)) /\
  refused POob (mt_elastic_net_check_ref o) pr (fit_unchecked (mt_elastic_net_check_ref o) (mt_elastic_net_fit_sparse o srt) pr (Dataset c t)) /\
  refused POob (block_mcp_check_ref o) pr (fit_unchecked (block_mcp_check_ref o) (block_mcp_fit_sparse o srt) pr (Dataset c t)).
Proof. exact (mismatch_mt_sparse o srt n T c t pr). Qed.
Print Assumptions C58_sparse_multitask.
Theorem C58_sparse_logistic {F} (o : FOps F) (srt : list F -> list nat) n c t s : target1_wf n t -> 1 <= s_max_iterations s -> entry_outside n c ->
  (forall d q, solve o srt (sparse_dm o) (log_sparse o) (l1_penalty o) s (Dataset c t) d q = Panic POob) /\
  (forall d q, solve o srt (sparse_dm o) (log_sparse o) (l1l2_penalty o) s (Dataset c t) d q = Panic POob) /\
  (forall d q, solve o srt (sparse_dm o) (log_sparse o) (mcp_penalty o) s (Dataset c t) d q = Panic POob).
Proof. exact (mismatch_logistic_sparse o srt n c t s). Qed.
Print Assumptions C58_sparse_logistic.
Theorem C58_alpha_max {F} (o : FOps F) X c y Y : (mnr X <> length y -> compute_alpha_max o X y = Panic PShape) /\
  (mnr X <> mnr Y -> compute_alpha_max_mtl o X Y = Panic PShape) /\ (entry_outside (length y) c -> compute_alpha_max_sparse o c y = Panic POob).
Proof. exact (mismatch_alpha_max o X c y Y). Qed.
Print Assumptions C58_alpha_max.
(** an empty column-pointer array: the number of features underflows *)
Theorem C58_empty_indptr {F} (o : FOps F) (srt : list F -> list nat) c t pr y : cindptr c = [] ->
  refused PUnderflow (lasso_check_ref o) pr (fit_unchecked (lasso_check_ref o) (lasso_fit_sparse o srt) pr (Dataset c t)) /\
  refused PUnderflow (elastic_net_check_ref o) pr (fit_unchecked (elastic_net_check_ref o) (elastic_net_fit_sparse o srt) pr (Dataset c t)) /\
  refused PUnderflow (mcp_check_ref o) pr (fit_unchecked (mcp_check_ref o) (mcp_fit_sparse o srt) pr (Dataset c t)) /\
  refused PUnderflow (mt_lasso_check_ref o) pr (fit_unchecked (mt_lasso_check_ref o) (mt_lasso_fit_sparse o srt) pr (Dataset c t)) /\
  refused PUnderflow (mt_elastic_net_check_ref o) pr (fit_unchecked (mt_elastic_net_check_ref o) (mt_elastic_net_fit_sparse o srt) pr (Dataset c t)) /\
  refused PUnderflow (block_mcp_check_ref o) pr (fit_unchecked (block_mcp_check_ref o) (block_mcp_fit_sparse o srt) pr (Dataset c t)) /\
  compute_alpha_max_sparse o c y = Panic PUnderflow.
Proof. exact (no_indptr o srt c t pr y). Qed.
Print Assumptions C58_empty_indptr.
(** a compressed-column design has no row count: surplus samples are accepted without notice, as
    samples whose features are all zero *)
Theorem C58_surplus_samples_refused_refuted : exists n p (c : csc f64) t pr w, csc_wf n p c /\ n < n_samples t /\ target1_wf (n_samples t) t /\
  fit_unchecked (lasso_check_ref ops64) (lasso_fit_sparse ops64 srt64) pr (Dataset c t) = Ret (Ok w) /\ nonzero ops64 w 0.
Proof. exact surplus_accepted. Qed.
Print Assumptions C58_surplus_samples_refused_refuted.
(** three rows, two targets *)
Example C58_nonvacuous : target1_wf 2 my /\ target_wf 2 1 my /\ mnr rX <> 2 /\ mwf rX /\ mnc rX = 2 /\ (exists c, lasso_check_ref ops64 rpr = Ok c) /\
  entry_outside 2 rC /\ csc_wf 3 2 rC /\ cindptr (Csc [f64_of 1] [0%Z] []) = [].
Proof. destruct mismatch_ex as (A & B & C & D & E & G & H & I). exact (conj A (conj B (conj C (conj D (conj E (conj G (conj H (conj I eq_refl)))))))). Qed.
