(** Null models in floating point, through the fits with validation. *)
From Coq Require Import List ZArith Bool Arith Lia.
From Flocq Require Import Core BinarySingleNaN.
From Verif Require Import Ops Arr MUtils MDatasets MHyper MEstimators MBlockPenalties IEEE SpecSolve PStruct PRuns PNull PNullLaws PNan SpecNull.
Import ListNotations.

Section I.
Variables (prec emax : Z).
Context (Hp : Prec_gt_0 prec) (Hm : Prec_lt_emax prec emax) (m : libm prec emax) (Hr : reduces prec emax Hp Hm m).
Local Notation o := (ieee_ops prec emax Hp Hm m).
Variable srt : list (binary_float prec emax) -> list nat.
Lemma ret_of {F DM A} chk (fit : params F -> dataset DM F -> res A) pr ds z : (forall q, chk pr = Ok q -> q = pr) -> fit pr ds = Ret z -> returns chk fit pr ds z.
Proof. intros HQ E q Hq. rewrite (fit_null chk fit pr ds z HQ E), Hq. reflexivity. Qed.
Lemma c19_floats n p X t y am pr : shaped n p X -> target1_wf n t -> single_target (f0 o) t = Ret y -> compute_alpha_max o X y = Ret am ->
  fle o (f0 o) (p_tolerance pr) = true ->
  (fle o am (p_alpha pr) = true -> returns (lasso_check_ref o) (lasso_fit_dense o srt) pr (Dataset X t) (repeat (f0 o) p) /\ returns (mcp_check_ref o) (mcp_fit_dense o srt) pr (Dataset X t) (repeat (f0 o) p)) /\
  (fle o am (fmul o (p_alpha pr) (p_shape pr)) = true -> returns (elastic_net_check_ref o) (elastic_net_fit_dense o srt) pr (Dataset X t) (repeat (f0 o) p)).
Proof.
  intros HX Ht Hy Ha HT. destruct (chk_same o pr) as (C1 & C2 & C3 & C4 & C5 & C6).
  destruct (c19_dense o (ieee_null _ _ _ _ m Hr) srt n p X t y am HX Ht Hy Ha pr HT) as [A B]. split.
  - intros H. destruct (A H). split; apply ret_of; auto.
  - intros H. apply ret_of; auto.
Qed.
Lemma c19_floats_sparse n p X t y am pr : csc_wf n p X -> target1_wf n t -> single_target (f0 o) t = Ret y -> compute_alpha_max_sparse o X y = Ret am ->
  fle o (f0 o) (p_tolerance pr) = true ->
  (fle o am (p_alpha pr) = true -> returns (lasso_check_ref o) (lasso_fit_sparse o srt) pr (Dataset X t) (repeat (f0 o) p) /\ returns (mcp_check_ref o) (mcp_fit_sparse o srt) pr (Dataset X t) (repeat (f0 o) p)) /\
  (fle o am (fmul o (p_alpha pr) (p_shape pr)) = true -> returns (elastic_net_check_ref o) (elastic_net_fit_sparse o srt) pr (Dataset X t) (repeat (f0 o) p)).
Proof.
  intros HX Ht Hy Ha HT. destruct (chk_same o pr) as (C1 & C2 & C3 & C4 & C5 & C6).
  destruct (c19_sparse o (ieee_null _ _ _ _ m Hr) srt n p X t y am HX Ht Hy Ha pr HT) as [A B]. split.
  - intros H. destruct (A H). split; apply ret_of; auto.
  - intros H. apply ret_of; auto.
Qed.
Lemma c40_floats n p X t y pr : shaped n p X -> target1_wf n t -> single_target (f0 o) t = Ret y -> (exists x, In x y /\ is_nan x = true) ->
  fle o (f0 o) (p_tolerance pr) = true ->
  returns (lasso_check_ref o) (lasso_fit_dense o srt) pr (Dataset X t) (repeat (f0 o) p) /\
  returns (mcp_check_ref o) (mcp_fit_dense o srt) pr (Dataset X t) (repeat (f0 o) p) /\
  returns (elastic_net_check_ref o) (elastic_net_fit_dense o srt) pr (Dataset X t) (repeat (f0 o) p).
Proof.
  intros HX Ht Hy Ha HT. destruct (chk_same o pr) as (C1 & C2 & C3 & C4 & C5 & C6).
  destruct (c40_dense o (ieee_null _ _ _ _ m Hr) (ieee_nan _ _ _ _ m Hr) srt n p X t y HX Ht Hy Ha pr HT) as (A & B & C). repeat split; apply ret_of; auto.
Qed.
Lemma c40_floats_mt n p T X t i k r x pr : shaped n p X -> target_wf n T t -> nth_error (mrows (as_multi_tasks t)) i = Some r -> nth_error r k = Some x -> is_nan x = true ->
  fle o (f0 o) (p_tolerance pr) = true ->
  returns (mt_lasso_check_ref o) (mt_lasso_fit_dense o srt) pr (Dataset X t) (mzeros o p T) /\
  returns (block_mcp_check_ref o) (block_mcp_fit_dense o srt) pr (Dataset X t) (mzeros o p T) /\
  returns (mt_elastic_net_check_ref o) (mt_elastic_net_fit_dense o srt) pr (Dataset X t) (mzeros o p T).
Proof.
  intros HX Ht Hi Hk Hx HT. destruct (chk_same o pr) as (C1 & C2 & C3 & C4 & C5 & C6).
  destruct (c40_dense_mt o (ieee_null _ _ _ _ m Hr) (ieee_nan _ _ _ _ m Hr) srt n p T X t i k r x HX Ht Hi Hk Hx pr HT) as (A & B & C). repeat split; apply ret_of; auto.
Qed.
End I.
