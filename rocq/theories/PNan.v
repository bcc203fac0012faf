(** NaN targets: every gradient at zero is NaN, every score is zero, and dense fits stop at once. *)
From Coq Require Import List ZArith Bool Arith Lia Reals Permutation.
From Flocq Require Import Core BinarySingleNaN.
From Verif Require Import Ops Arr MUtils MDatasets MDatafits MDatafitsMT MPenalties MBlockPenalties MCd MBcd MHyper MEstimators XR IEEE PBase PLaws SpecSolve PStruct PShape PNoPanic PRuns PNull PNullLaws.
Import ListNotations.
Local Open Scope nat_scope.

Record nan_laws {F} (o : FOps F) : Prop := {
  nn_ndot : forall a b x, length a = length b -> In x b -> fisnan o x = true -> fisnan o (ndot o a b) = true;
  nn_gdot : forall a b x, length a = length b -> In x b -> fisnan o x = true -> fisnan o (gdot o a b) = true;
  nn_div : forall x y, fisnan o x = true -> fisnan o (fdiv o x y) = true;
  nn_subl : forall x y, fisnan o x = true -> fisnan o (fsub o x y) = true;
  nn_subr : forall x y, fisnan o y = true -> fisnan o (fsub o x y) = true;
  nn_sqrt : forall x, fisnan o x = true -> fisnan o (fsqrt o x) = true;
  nn_lt : forall x y, fisnan o y = true -> flt o x y = false
}.

Section Generic.
Context {F : Type} (o : FOps F) (NL : null_laws o) (NN : nan_laws o) (srt : list F -> list nat).
Notation z0 := (f0 o).
Lemma nan_max0 x : fisnan o x = true -> fmax o z0 x = z0.
Proof. intros H. apply (nl_max0 o NL). apply (nn_lt o NN). auto. Qed.

(** *** single task *)
Lemma c40_dense n p X t y : shaped n p X -> target1_wf n t -> single_target z0 t = Ret y -> (exists x, In x y /\ fisnan o x = true) ->
  forall pr, fle o z0 (p_tolerance pr) = true ->
  lasso_fit_dense o srt pr (Dataset X t) = Ret (repeat z0 p) /\ mcp_fit_dense o srt pr (Dataset X t) = Ret (repeat z0 p) /\
  elastic_net_fit_dense o srt pr (Dataset X t) = Ret (repeat z0 p).
Proof using NL NN.
  intros HX Ht Hy (x & Hx & Nx) pr HT. destruct (dense_grad0 o NL n p X t y (quadratic_new o) HX Ht Hy) as (d' & Ed & EX & HG).
  assert (HD := dense_sh o n p X HX). assert (Hn := target1_ns n t Ht). destruct (single_ok o n t Ht) as (y' & Ey & HL). rewrite Hy in Ey. inversion Ey; subst y'.
  destruct (cols_length z0 _ _ _ HX) as [_ HC]. rewrite Forall_forall in HC.
  assert (HS : forall th j, j < p -> exists g, df_gradient_j (quad_dense o) d' (Dataset X t) (vzeros o n) j = Ret g /\ flt o z0 (fsub o (fabs o g) th) = false).
  { intros th j Hj. destruct (HG j Hj) as (z & b & Hz & Eb & Eg). eexists. split; [exact Eg|]. apply (nl_nangrad o NL).
    apply nth_error_In in Eb. rewrite EX in Eb. apply in_map_iff in Eb as (c & <- & Hc). apply (nn_ndot o NN) with x; auto. rewrite HL. auto. }
  split; [|split]; [unfold lasso_fit_dense|unfold mcp_fit_dense|unfold elastic_net_fit_dense]; (eapply cd_null; eauto; [reflexivity|]); cbv beta; intros j Hj.
  - destruct (HS (l1_alpha (L1 (p_alpha pr))) j Hj) as (g & Eg & Hg). exists g. split; auto. apply l1_zero; auto.
  - destruct (HS (mcp_alpha (MCP (p_alpha pr) (p_shape pr))) j Hj) as (g & Eg & Hg). exists g. split; auto. apply mcp_zero; auto.
  - destruct (HS (fmul o (en_alpha (L1PlusL2 (p_alpha pr) (p_shape pr))) (en_l1_ratio (L1PlusL2 (p_alpha pr) (p_shape pr)))) j Hj) as (g & Eg & Hg). exists g. split; auto. apply l1l2_zero; auto.
Qed.

(** *** several tasks *)
Lemma row_zeros p T j : j < p -> mrow (mzeros o p T) j = Ret (repeat z0 T).
Proof using. intros H. unfold mrow, mzeros, mfill. cbn [mrows]. unfold vget. rewrite nth_error_repeat by auto. reflexivity. Qed.
Lemma any_zeros T : any_nonzero o (repeat z0 T) = false.
Proof using NL. induction T as [|T IH]; auto. simpl. rewrite (nl_eq0 o NL), IH. reflexivity. Qed.
Lemma bscores_null score p T g : length (mrows g) = p -> (forall x, In x (mrows g) -> score (repeat z0 T) x = z0) ->
  bscores o score (mzeros o p T) g (seq 0 p) = Ret (repeat z0 p, fold_max o (fninf o) (repeat z0 p)).
Proof using.
  intros HL HS. unfold bscores. rewrite (mapM_const _ z0).
  - rewrite combine_length, seq_length, HL, Nat.min_id. reflexivity.
  - intros [x j] Hin. simpl. pose proof (in_combine_l _ _ _ _ Hin). pose proof (in_combine_r _ _ _ _ Hin) as Hj. apply in_seq in Hj.
    rewrite row_zeros by lia. cbn [bind]. rewrite HS; auto.
Qed.
Lemma bcd_null {DM D P} (dm : DesignMatrix F DM) (df : DatafitMT F DM D) (pen : PenaltyMT F P) score p_ ds d d' n p T ws0 it me tol K acc v :
  dm_sh dm (design_matrix ds) n p -> n_samples (dtargets ds) = n -> n_tasks (dtargets ds) = T -> dfm_initialize df d ds = Ret d' ->
  (forall W g ws, bpen_subdiff_distance pen p_ W g ws = bscores o score W g ws) ->
  (forall j, j < p -> exists g, dfm_gradient_j df d' ds (mzeros o n T) j = Ret g /\ length g = T /\ score (repeat z0 T) g = z0) ->
  fle o z0 tol = true ->
  block_coordinate_descent o dm df pen srt ds d p_ ws0 it me tol K acc v = Ret (mzeros o p T).
Proof using NL.
  intros HD Hn HnT Ed HP HG HT. unfold block_coordinate_descent. rewrite (sh_nf _ _ _ _ HD), Hn, HnT, Ed. cbn [bind].
  destruct it as [|it]; cbn [outer_loop_mt]; [reflexivity|]. unfold opt_cond_violation_mt, construct_grad_mt.
  destruct (t_mapM (fun j => dfm_gradient_j df d' ds (mzeros o n T) j) (fun g => length g = T) (seq 0 p)) as (g & Eg & HF & HL).
  { intros j Hj. apply in_seq in Hj. destruct (HG j) as (g & Eg & Lg & _); [lia|]. exists g. auto. }
  rewrite Eg. cbn [bind]. rewrite HnT, reshape_concat by auto. cbn [bind]. rewrite seq_length in *. rewrite HP, bscores_null.
  - cbn [bind]. rewrite fold_repeat by auto. reflexivity.
  - exact HL.
  - cbn [mrows]. intros x Hx. destruct (mapM_in _ _ _ Eg x Hx) as (j & Hj & Ej). apply in_seq in Hj. destruct (HG j) as (g' & Eg' & _ & HS); [lia|]. congruence.
Qed.
Lemma nan_norm g x : In x g -> fisnan o x = true -> fisnan o (ndot o g g) = true.
Proof using NN. intros. eapply (nn_ndot o NN); eauto. Qed.
Lemma in_map2 {A B C} (f : A -> B -> C) b : forall a k x y, nth_error a k = Some x -> nth_error b k = Some y -> In (f x y) (map2 f a b).
Proof using.
  intros a k x y Ha Hb. unfold map2. apply in_map_iff. exists (x, y). split; auto. revert b k Ha Hb. induction a as [|u a IH]; intros b k Ha Hb; [destruct k; discriminate|].
  destruct b as [|v b]; [destruct k; discriminate|]. destruct k as [|k]; simpl in *; [left; congruence|right; eauto].
Qed.
Lemma dense_mt_grad_nan n p T X t d i k r x : shaped n p X -> target_wf n T t -> nth_error (mrows (as_multi_tasks t)) i = Some r -> nth_error r k = Some x -> fisnan o x = true ->
  exists d', dfm_initialize (qmt_dense o) d (Dataset X t) = Ret d' /\
  forall j, j < p -> exists g, dfm_gradient_j (qmt_dense o) d' (Dataset X t) (mzeros o n T) j = Ret g /\ length g = T /\ exists x, In x g /\ fisnan o x = true.
Proof using NN.
  intros HX Ht Hr Hk Nx. cbn [dfm_initialize qmt_dense]. unfold qmt_dense_initialize. cbn [dtargets design_matrix].
  destruct (target_ns _ _ _ Ht) as (N1 & N2 & N3). assert (HX' := HX). destruct HX' as (H1 & H2 & H3). assert (N3' := N3). destruct N3' as (A1 & A2 & [A3 A4]).
  unfold mtm. rewrite H1, A1, Nat.eqb_refl. cbn [bind]. eexists. split; [reflexivity|]. intros j Hj.
  cbn [dfm_gradient_j qmt_dense]. unfold qmt_dense_gradient_j. cbn [design_matrix dtargets qm_XtY].
  destruct (t_mcol z0 n p X j HX Hj) as (c & Ec & Lc). rewrite Ec. cbn [bind]. unfold vtm, mzeros, mfill at 1. cbn [mnr]. rewrite Lc, Nat.eqb_refl. cbn [bind].
  unfold mrow, vget. cbn [mrows]. destruct (cols_length z0 _ _ _ HX) as [L1 L2]. destruct (cols_length z0 _ _ _ N3) as [M1 M2].
  assert (HT : k < T). { rewrite Forall_forall in A4. rewrite <- A2, <- (A4 r) by (eapply nth_error_In; eauto). apply nth_error_Some. congruence. }
  destruct (nth_error (cols z0 X) j) as [cj|] eqn:Ecj; [|apply nth_error_None in Ecj; lia].
  rewrite nth_error_map, Ecj. cbn [option_map bind].
  assert (LZ : length (cols z0 (mfill z0 n T)) = T) by (unfold cols; rewrite map_length, seq_length; reflexivity).
  unfold vsub, vbin. rewrite !map_length, LZ, M1, Nat.eqb_refl. cbn [bind]. eexists. split; [reflexivity|].
  split; [unfold map2; rewrite !map_length, combine_length, !map_length, LZ, M1; apply Nat.min_id|].
  destruct (nth_error (cols z0 (mfill z0 n T)) k) as [u|] eqn:Eu; [|apply nth_error_None in Eu; lia].
  destruct (nth_error (cols z0 (as_multi_tasks t)) k) as [w|] eqn:Ew; [|apply nth_error_None in Ew; lia].
  eexists. split.
  - apply (in_map (fun v => fdiv o v (fcast o (n_samples t)))). apply in_map2 with (k := k) (x := ndot o u c) (y := gdot o cj w); rewrite nth_error_map; [rewrite Eu|rewrite Ew]; reflexivity.
  - apply (nn_div o NN), (nn_subr o NN). apply (nn_gdot o NN) with x; auto.
    + rewrite Forall_forall in L2, M2. rewrite (L2 cj), (M2 w); auto; eapply nth_error_In; eauto.
    + assert (w = colv z0 (as_multi_tasks t) k) as ->. { unfold cols in Ew. rewrite nth_error_map in Ew. rewrite A2, (nth_error_nth' _ 0) in Ew by (rewrite seq_length; auto). rewrite seq_nth in Ew by auto. cbn in Ew. injection Ew. auto. }
      unfold colv. apply in_map_iff. exists r. split; [apply nth_error_nth; auto|eapply nth_error_In; eauto].
Qed.
Lemma c40_dense_mt n p T X t i k r x : shaped n p X -> target_wf n T t -> nth_error (mrows (as_multi_tasks t)) i = Some r -> nth_error r k = Some x -> fisnan o x = true ->
  forall pr, fle o z0 (p_tolerance pr) = true ->
  mt_lasso_fit_dense o srt pr (Dataset X t) = Ret (mzeros o p T) /\ block_mcp_fit_dense o srt pr (Dataset X t) = Ret (mzeros o p T) /\
  mt_elastic_net_fit_dense o srt pr (Dataset X t) = Ret (mzeros o p T).
Proof using NL NN.
  intros HX Ht Hr Hk Nx pr HT. destruct (dense_mt_grad_nan n p T X t (quadratic_mt_new o) i k r x HX Ht Hr Hk Nx) as (d' & Ed & HG).
  assert (HD := dense_sh o n p X HX). destruct (target_ns n T t Ht) as (Hn & HnT & _).
  split; [|split]; [unfold mt_lasso_fit_dense|unfold block_mcp_fit_dense|unfold mt_elastic_net_fit_dense]; (eapply bcd_null; eauto; [reflexivity|]); cbv beta; intros j Hj;
    destruct (HG j Hj) as (g & Eg & Lg & x' & Hx' & Nx'); exists g; split; auto; split; auto; assert (N := nan_norm g x' Hx' Nx').
  - unfold l21_score. rewrite any_zeros. apply nan_max0. apply (nn_subl o NN). unfold rownorm. apply (nn_sqrt o NN); auto.
  - unfold bmcp_score. cbv zeta. rewrite any_zeros. cbn [negb]. apply nan_max0. apply (nn_subl o NN). unfold rownorm. apply (nn_sqrt o NN); auto.
  - unfold bl1l2_score. rewrite any_zeros. apply nan_max0. apply (nn_subl o NN). auto.
Qed.
End Generic.

Section I.
Variables (prec emax : Z).
Context (Hp : Prec_gt_0 prec) (Hm : Prec_lt_emax prec emax).
Notation bf := (binary_float prec emax).
Lemma nan_add (x y : bf) : is_nan x = true \/ is_nan y = true -> is_nan (badd prec emax Hp Hm x y) = true.
Proof. intros [H|H]; destruct x, y; try discriminate; reflexivity. Qed.
Lemma tree_nan l r : tree_sum prec emax Hp Hm l r -> (exists x, In x l /\ is_nan x = true) -> is_nan r = true.
Proof.
  induction 1 as [|x|l1 l2 r1 r2 H1 IH1 H2 IH2|l1 l2 r HP H IH]; intros (z & Hz & Nz).
  - destruct Hz.
  - destruct Hz as [->|[]]. auto.
  - apply nan_add. apply in_app_or in Hz as [Hz|Hz]; eauto.
  - apply IH. exists z. split; auto. eapply Permutation_in; [apply Permutation_sym; exact HP|auto].
Qed.
Lemma mul_nan (x y : bf) : is_nan y = true -> is_nan (bmul prec emax Hp Hm x y) = true.
Proof. destruct x, y; try discriminate; reflexivity. Qed.
Lemma dot_nan (a b : list bf) x : length a = length b -> In x b -> is_nan x = true -> exists z, In z (map2 (bmul prec emax Hp Hm) a b) /\ is_nan z = true.
Proof.
  intros HL Hx Nx. apply In_nth_error in Hx as (k & Hk). assert (k < length a) by (rewrite HL; apply nth_error_Some; congruence).
  destruct (nth_error a k) as [u|] eqn:Eu; [|apply nth_error_None in Eu; lia]. exists (bmul prec emax Hp Hm u x). split; [eapply in_map2; eauto|apply mul_nan; auto].
Qed.
Lemma ieee_nan m : reduces prec emax Hp Hm m -> nan_laws (ieee_ops prec emax Hp Hm m).
Proof.
  intros (_ & _ & RN & RG). split; cbn.
  - intros a b x HL Hx Nx. eapply tree_nan; [apply RN|]. eapply dot_nan; eauto.
  - intros a b x HL Hx Nx. eapply tree_nan; [apply RG|]. eapply dot_nan; eauto.
  - intros [] []; try discriminate; reflexivity.
  - intros [] []; try discriminate; reflexivity.
  - intros [] []; try discriminate; reflexivity.
  - intros []; try discriminate; reflexivity.
  - intros [] []; try discriminate; reflexivity.
Qed.
End I.
