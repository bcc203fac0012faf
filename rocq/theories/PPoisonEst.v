(** Estimators on dense designs with a NaN entry; the two arithmetics satisfy the NaN laws. *)
From Coq Require Import List ZArith Bool Arith Lia Reals Lra Permutation.
From Flocq Require Import Core BinarySingleNaN.
From Verif Require Import Ops Arr MUtils MDatasets MDatafits MDatafitsMT MPenalties MBlockPenalties
  MCd MBcd MHyper MEstimators XR IEEE PBase SpecSolve SpecNan PStruct PShape PNoPanic PLaws PRuns PRunsEx PNull PNan PSortNanFit PPoison PPoisonMt PPoisonFit.
Import ListNotations.
Local Open Scope nat_scope.

(** *** the laws *)
Lemma in_map2l {A B C} (f : A -> B -> C) a b x y0 : length a = length b -> In x a \/ In y0 b ->
  (exists y, In x a /\ In (f x y) (map2 f a b)) \/ (exists z, In y0 b /\ In (f z y0) (map2 f a b)).
Proof.
  intros HL [H|H]; apply In_nth_error in H as (k & Hk); [left|right].
  - destruct (nth_error b k) as [y|] eqn:E; [|apply nth_error_None in E; assert (k < length a) by (apply nth_error_Some; congruence); lia].
    exists y. split; [eapply nth_error_In; eauto|eapply in_map2; eauto].
  - destruct (nth_error a k) as [y|] eqn:E; [|apply nth_error_None in E; assert (k < length b) by (apply nth_error_Some; congruence); lia].
    exists y. split; [eapply nth_error_In; eauto|eapply in_map2; eauto].
Qed.
Lemma xnan x : xisnan x = true -> x = NaN. Proof. destruct x; try discriminate; reflexivity. Qed.
Lemma xadd_nan x : xadd x NaN = NaN. Proof. destruct x; reflexivity. Qed.
Lemma xmul_nan x : xmul x NaN = NaN. Proof. destruct x; reflexivity. Qed.
Lemma xfold_nan l : fold_left xadd l NaN = NaN. Proof. induction l; auto. Qed.
Lemma xfold_in l : forall s, In NaN l -> fold_left xadd l s = NaN.
Proof. induction l as [|y l IH]; intros s []; cbn [fold_left]; [subst; rewrite xadd_nan; apply xfold_nan|auto]. Qed.
Lemma xdot_nan a b x : length a = length b -> In x a \/ In x b -> xisnan x = true -> xisnan (xdot a b) = true.
Proof.
  intros HL HI HN. apply xnan in HN. subst x. unfold xdot, xsum. rewrite xfold_in; [reflexivity|].
  destruct (in_map2l xmul a b NaN NaN HL HI) as [(y & _ & H)|(z & _ & H)]; [exact H|rewrite xmul_nan in H; exact H].
Qed.
Lemma xr_spreads : nan_spreads xops.
Proof.
  split; cbn.
  - exact xdot_nan.
  - exact xdot_nan.
  - intros l x H HN. apply xnan in HN. subst x. unfold xsum. rewrite xfold_in by exact H. auto.
  - intros x y [H|H]; apply xnan in H; subst; [repeat split; reflexivity|]. destruct x; repeat split; reflexivity.
  - intros x H. apply xnan in H. subst. auto.
  - intros x y [H|H]; apply xnan in H; subst; [repeat split; reflexivity|]. destruct x; repeat split; reflexivity.
  - intros x. unfold zero_or_nan. cbn. destruct x as [r| | |]; cbn; auto; try (left; apply Reqb_refl).
    destruct (Reqb r 0) eqn:E; [right; unfold inf_of; destruct (Rltb 0 0) eqn:E1; [apply Rltb_spec in E1; lra|reflexivity]|].
    left. apply Reqb_spec. unfold Rdiv. ring.
Qed.
Section I.
Context (prec emax : Z) (Hp : Prec_gt_0 prec) (Hm : Prec_lt_emax prec emax).
Notation bf := (binary_float prec emax).
Lemma bdot_nan (a b : list bf) x r : length a = length b -> In x a \/ In x b -> is_nan x = true ->
  tree_sum prec emax Hp Hm (map2 (bmul prec emax Hp Hm) a b) r -> is_nan r = true.
Proof.
  intros HL HI HN HT. eapply tree_nan; [exact HT|].
  destruct (in_map2l (bmul prec emax Hp Hm) a b x x HL HI) as [(y & _ & H)|(z & _ & H)]; eexists; (split; [exact H|]).
  - destruct x; try discriminate. destruct y; reflexivity.
  - apply mul_nan. exact HN.
Qed.
Lemma ieee_spreads m : reduces prec emax Hp Hm m -> nan_spreads (ieee_ops prec emax Hp Hm m).
Proof.
  intros (RI & RS & RN & RG). split; cbn.
  - intros a b x HL HI HN. eapply bdot_nan; eauto.
  - intros a b x HL HI HN. eapply bdot_nan; eauto.
  - intros l x H HN. split; (eapply tree_nan; [apply RI || apply RS|]); exists x; auto.
  - intros x y [H|H]; destruct x, y; try discriminate; repeat split; reflexivity.
  - intros x H. destruct x; try discriminate. repeat split; reflexivity.
  - intros x y [H|H]; destruct x, y; try discriminate; repeat split; reflexivity.
  - intros x. unfold zero_or_nan. cbn. destruct x as [[]|[]| |[] ? ? ?]; auto.
Qed.
End I.

Section E.
Context {F : Type} (o : FOps F) (LF : float_laws o) (SP : nan_spreads o) (srt : list F -> list nat) (VS : valid_sort o srt).
Variables (n p : nat) (X : mat F) (t : targets F) (pr : params F) (j : nat).
Hypotheses (HX : shaped n p X) (HC : nan_column o X j) (Hs : p <= p_ws_start_size pr) (He : 2 <= p_max_epochs pr).
Lemma nan_n1 : 1 <= n.
Proof using HX HC. clear Hs He. destruct HC as (r & x & Hr & _). destruct HX as (H1 & _ & H3 & _). destruct (mrows X); [destruct Hr|cbn in H3; lia]. Qed.
Lemma nan_ms k : nan_column o X k -> fisnan o (mean_square o X k) = true.
Proof using SP.
  intros (r & x & Hr & Hx & HN). unfold mean_square. cbv zeta. apply (s_divl o SP). apply (sp_ndot o SP _ _ x); auto. left. apply in_map_iff. exists r. split; auto. apply nth_error_nth. exact Hx.
Qed.
Lemma fit_inv {DM A} chk (fit : params F -> dataset DM F -> res A) ds w : (forall q, chk pr = Ok q -> q = pr) ->
  fit_unchecked chk fit pr ds = Ret (Ok w) -> fit pr ds = Ret w.
Proof using.
  intros HQ E. unfold fit_unchecked in E. destruct (chk pr) as [q|] eqn:Ec; [|discriminate]. rewrite (HQ q eq_refl) in E. destruct (fit pr ds); [cbn in E; congruence|discriminate].
Qed.
Lemma ruin_enet w : target1_wf n t -> fit_unchecked (elastic_net_check_ref o) (elastic_net_fit_dense o srt) pr (Dataset X t) = Ret (Ok w) ->
  w = repeat (f0 o) p \/ forall k x, k < p -> nth_error w k = Some x ->
    (feq o (mean_square o X k) (f0 o) = true -> x = f0 o) /\ (feq o (mean_square o X k) (f0 o) = false -> zero_or_nan o x) /\ (nan_column o X k -> fisnan o x = true).
Proof using All.
  intros Ht E. destruct (chk_same o pr) as (C1 & C2 & C3 & C4 & C5 & C6). apply (fit_inv _ _ _ _ C5) in E.
  destruct (poison_dense o LF SP srt VS n p X HX nan_n1 (l1l2_penalty o) _ (zero_or_nan o) (l1l2_sh o LF _) (fun v s H => proj1 (l1l2_prox_nan o SP _ v s H))
    (fun v s H => proj2 (l1l2_prox_nan o SP _ v s H)) t _ _ _ _ _ _ _ _ w j Ht HC Hs He E) as [H|H]; [left; exact H|right].
  intros k x Hk Hx. destruct (H k x Hk Hx) as (A1 & A2 & A3). split; [exact A1|]. split; [exact A2|]. intros Hn. apply A3, nan_ms, Hn.
Qed.
Lemma ruin_mcp w : target1_wf n t -> fit_unchecked (mcp_check_ref o) (mcp_fit_dense o srt) pr (Dataset X t) = Ret (Ok w) ->
  w = repeat (f0 o) p \/ forall k x, k < p -> nth_error w k = Some x ->
    (feq o (mean_square o X k) (f0 o) = true -> x = f0 o) /\ (feq o (mean_square o X k) (f0 o) = false -> fisnan o x = true).
Proof using All.
  intros Ht E. destruct (chk_same o pr) as (C1 & C2 & C3 & C4 & C5 & C6). apply (fit_inv _ _ _ _ C3) in E.
  destruct (poison_dense o LF SP srt VS n p X HX nan_n1 (mcp_penalty o) _ (fun x => fisnan o x = true) (mcp_sh o LF _) (mcp_prox_nan o SP _)
    (fun v s H _ => mcp_prox_nan o SP _ v s H) t _ _ _ _ _ _ _ _ w j Ht HC Hs He E) as [H|H]; [left; exact H|right].
  intros k x Hk Hx. destruct (H k x Hk Hx) as (A1 & A2 & _). auto.
Qed.
Lemma ruin_mt T W : target_wf n T t -> 1 <= T ->
  fit_unchecked (mt_lasso_check_ref o) (mt_lasso_fit_dense o srt) pr (Dataset X t) = Ret (Ok W) \/
  fit_unchecked (mt_elastic_net_check_ref o) (mt_elastic_net_fit_dense o srt) pr (Dataset X t) = Ret (Ok W) \/
  fit_unchecked (block_mcp_check_ref o) (block_mcp_fit_dense o srt) pr (Dataset X t) = Ret (Ok W) -> ruined_multitask o X p T W.
Proof using All.
  intros Ht HT E. destruct (chk_same o pr) as (C1 & C2 & C3 & C4 & C5 & C6). destruct E as [E|[E|E]]; apply fit_inv in E; auto.
  - exact (poison_dense_mt o LF SP srt VS n p X HX nan_n1 T t Ht HT _ _ (l21_sh o LF T _) (l21_prox_nan o SP _) _ _ _ _ _ _ _ _ W j HC Hs He E).
  - exact (poison_dense_mt o LF SP srt VS n p X HX nan_n1 T t Ht HT _ _ (bl1l2_sh o LF T _) (bl1l2_prox_nan o SP _) _ _ _ _ _ _ _ _ W j HC Hs He E).
  - exact (poison_dense_mt o LF SP srt VS n p X HX nan_n1 T t Ht HT _ _ (bmcp_sh o LF T _) (bmcp_prox_nan o SP _) _ _ _ _ _ _ _ _ W j HC Hs He E).
Qed.
End E.

(** *** concrete runs on doubles: column 1 of [nX] has one NaN *)
Definition npr_en : params f64 := Params (flit ops64 1 10) (flit ops64 1 2) 2 25 10 (flit ops64 1 1000000) 2 false false.
Definition npr_mcp : params f64 := Params (flit ops64 1 10) (f64_of 3) 2 25 10 (flit ops64 1 1000000) 2 false false.
Lemma ex_spread : nan_spreads ops64 /\ shaped 3 2 nX /\ nan_column ops64 nX 1.
Proof.
  split; [apply ieee_spreads; apply seq_reduces|]. split; [repeat split; repeat constructor|].
  exists [f64_of 1; nan64], nan64. split; [left; reflexivity|]. split; reflexivity.
Qed.
Lemma ex_side : 2 <= p_ws_start_size npr_en /\ 2 <= p_max_epochs npr_en /\ 2 <= p_ws_start_size npr_mcp /\ 2 <= p_max_epochs npr_mcp /\ target1_wf 3 ry /\ target_wf 3 1 ry.
Proof. cbn [p_ws_start_size p_max_epochs npr_en npr_mcp]. repeat split; try lia; try reflexivity. Qed.
Lemma ex_ruin :
  match fit_unchecked (elastic_net_check_ref ops64) (elastic_net_fit_dense ops64 srt64) npr_en (Dataset nX ry) with
  | Ret (Ok [a; b]) => (feq ops64 a (f0 ops64) || fisnan ops64 a) && fisnan ops64 b | _ => false end &&
  match fit_unchecked (mcp_check_ref ops64) (mcp_fit_dense ops64 srt64) npr_mcp (Dataset nX ry) with
  | Ret (Ok [a; b]) => fisnan ops64 a && fisnan ops64 b | _ => false end &&
  match fit_unchecked (mt_lasso_check_ref ops64) (mt_lasso_fit_dense ops64 srt64) npr_en (Dataset nX ry) with
  | Ret (Ok W) => forallb (forallb (fisnan ops64)) (mrows W) | _ => false end = true.
Proof. vm_compute. reflexivity. Qed.
