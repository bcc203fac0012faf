(** Dense fits on designs with a NaN entry. *)
From Coq Require Import List ZArith Bool Arith Lia Reals Lra Permutation.
From Flocq Require Import Core BinarySingleNaN.
From Verif Require Import Ops Arr MUtils MDatasets MDatafits MDatafitsMT MPenalties MBlockPenalties
  MCd MBcd MHyper MEstimators XR IEEE PBase SpecSolve SpecNan PStruct PShape PNoPanic PLaws PRuns PNull PNan PPoison PPoisonMt.
Import ListNotations.
Local Open Scope nat_scope.

Section G.
Context {F : Type} (o : FOps F) (LF : float_laws o) (SP : nan_spreads o) (srt : list F -> list nat) (VS : valid_sort o srt).
Notation isnan x := (fisnan o x = true).
Lemma s_addl x y : isnan x -> isnan (fadd o x y). Proof using SP. intros H. apply (sp_ops o SP x y (or_introl H)). Qed.
Lemma s_addr x y : isnan y -> isnan (fadd o x y). Proof using SP. intros H. apply (sp_ops o SP x y (or_intror H)). Qed.
Lemma s_subl x y : isnan x -> isnan (fsub o x y). Proof using SP. intros H. apply (sp_ops o SP x y (or_introl H)). Qed.
Lemma s_subr x y : isnan y -> isnan (fsub o x y). Proof using SP. intros H. apply (sp_ops o SP x y (or_intror H)). Qed.
Lemma s_mull x y : isnan x -> isnan (fmul o x y). Proof using SP. intros H. apply (sp_ops o SP x y (or_introl H)). Qed.
Lemma s_mulr x y : isnan y -> isnan (fmul o x y). Proof using SP. intros H. apply (sp_ops o SP x y (or_intror H)). Qed.
Lemma s_divl x y : isnan x -> isnan (fdiv o x y). Proof using SP. intros H. apply (sp_ops o SP x y (or_introl H)). Qed.
Lemma s_divr x y : isnan y -> isnan (fdiv o x y). Proof using SP. intros H. apply (sp_ops o SP x y (or_intror H)). Qed.
Lemma s_ltl x y : isnan x -> flt o x y = false. Proof using SP. intros H. apply (sp_cmp o SP x y (or_introl H)). Qed.
Lemma s_ltr x y : isnan y -> flt o x y = false. Proof using SP. intros H. apply (sp_cmp o SP x y (or_intror H)). Qed.
Lemma s_lel x y : isnan x -> fle o x y = false. Proof using SP. intros H. apply (sp_cmp o SP x y (or_introl H)). Qed.
Lemma s_eql x y : isnan x -> feq o x y = false. Proof using SP. intros H. apply (sp_cmp o SP x y (or_introl H)). Qed.

(** *** proximal operators at NaN *)
Lemma l1l2_prox_nan q v s : isnan v -> zero_or_nan o (pen_prox (l1l2_penalty o) q v s) /\ (isnan s -> isnan (pen_prox (l1l2_penalty o) q v s)).
Proof using SP.
  intros H. cbn [pen_prox l1l2_penalty]. unfold l1l2_prox, soft_thresholding. rewrite s_ltr, s_ltl by exact H. split; [apply (sp_zdiv o SP)|].
  intros Hs. apply s_divr, s_addr, s_mull, s_mull. exact Hs.
Qed.
Lemma mcp_prox_nan q v s : isnan v -> isnan (pen_prox (mcp_penalty o) q v s).
Proof using SP.
  intros H. cbn [pen_prox mcp_penalty]. unfold mcp_prox. assert (Ha : isnan (fabs o v)) by apply (sp_fun o SP v H).
  rewrite s_lel, s_ltr by exact Ha. apply s_divl, s_mull. apply (sp_fun o SP v H).
Qed.
Lemma bst_nan v s : v <> [] -> Forall (isn o) v -> Forall (isn o) (block_soft_thresholding o v s).
Proof using SP.
  intros Hv HN. unfold block_soft_thresholding. destruct v as [|x v]; [congruence|].
  assert (H : isnan (fsqrt o (nsum o (map (sq o) (x :: v))))).
  { apply (sp_fun o SP). apply (sp_sums o SP _ (sq o x)); [left; reflexivity|]. apply s_mull. exact (Forall_inv HN). }
  rewrite s_ltl by exact H. apply Forall_forall. intros y Hy. apply in_map_iff in Hy as (u & <- & Hu). rewrite Forall_forall in HN. apply s_mull, HN. exact Hu.
Qed.
Lemma bmcp_prox_nan q v s : v <> [] -> Forall (isn o) v -> Forall (isn o) (bpen_prox (bmcp_penalty o) q v s).
Proof using SP.
  intros Hv HN. cbn [bpen_prox bmcp_penalty]. unfold bmcp_prox. destruct v as [|x v]; [congruence|].
  assert (H : isnan (rownorm o (x :: v))).
  { unfold rownorm. apply (sp_fun o SP). apply (sp_ndot o SP _ _ x); [reflexivity|left; left; reflexivity|exact (Forall_inv HN)]. }
  rewrite s_lel, s_ltr by exact H. apply Forall_forall. intros y Hy. apply in_map_iff in Hy as (u & <- & Hu). rewrite Forall_forall in HN.
  apply s_divl, s_mulr, HN. exact Hu.
Qed.

Lemma l21_prox_nan q v s : v <> [] -> Forall (isn o) v -> Forall (isn o) (bpen_prox (l21_penalty o) q v s).
Proof using SP. intros Hv HN. apply bst_nan; auto. Qed.
Lemma bl1l2_prox_nan q v s : v <> [] -> Forall (isn o) v -> Forall (isn o) (bpen_prox (bl1l2_penalty o) q v s).
Proof using SP.
  intros Hv HN. cbn [bpen_prox bl1l2_penalty]. unfold bl1l2_prox. apply Forall_forall. intros y Hy. apply in_map_iff in Hy as (u & <- & Hu).
  apply s_divl. revert u Hu. apply Forall_forall. apply bst_nan; auto.
Qed.

(** *** the laws used by the core *)
Lemma nan_laws_of : nan_laws o.
Proof using SP.
  split; intros.
  - eapply (sp_ndot o SP); eauto.
  - eapply (sp_gdot o SP); eauto.
  - apply s_divl; auto.
  - apply s_subl; auto.
  - apply s_subr; auto.
  - apply (sp_fun o SP); auto.
  - apply s_ltr; auto.
Qed.
Lemma nan_spread_of : nan_spread o.
Proof using SP.
  split; intros.
  - eapply (sp_ndot o SP); eauto.
  - apply s_divr; auto.
  - apply s_addl; auto.
  - apply s_addr; auto.
  - apply s_mull; auto.
  - apply s_mulr; auto.
  - apply (sp_fun o SP); auto.
  - eapply (sp_sums o SP); eauto.
  - eapply (sp_sums o SP); eauto.
  - apply s_ltl; auto.
  - apply s_lel; auto.
  - apply s_eql; auto.
  - apply (sp_zdiv o SP).
Qed.

(** *** the dense quadratic datafits *)
Lemma map2_forall {A B C} (Q : C -> Prop) (f : A -> B -> C) : forall a b, (forall x y, In x a -> In y b -> Q (f x y)) -> Forall Q (map2 f a b).
Proof using.
  intros a b H. apply Forall_forall. intros z Hz. unfold map2 in Hz. apply in_map_iff in Hz as ((x, y) & <- & Hxy).
  apply H; [eapply in_combine_l|eapply in_combine_r]; eauto.
Qed.
Lemma ne_len {A} (l : list A) : 1 <= length l -> l <> []. Proof using. destruct l; [cbn; lia|congruence]. Qed.
Lemma map2_len {A B C} (f : A -> B -> C) a b : length a = length b -> length (map2 f a b) = length a.
Proof using. intros E. unfold map2. rewrite map_length, combine_length. lia. Qed.
Variables (n p : nat) (X : mat F).
Hypotheses (HX : shaped n p X) (Hn1 : 1 <= n).
Lemma col_len j : length (colv (f0 o) X j) = n.
Proof using HX. destruct HX as (H1 & _ & H2 & _). unfold colv. rewrite map_length. congruence. Qed.
Lemma nan_lip j : nan_column o X j -> exists l, nth_error (map (fun c => fdiv o (ndot o c c) (fcast o n)) (cols (f0 o) X)) j = Some l /\ isnan l.
Proof using HX Hn1 SP.
  intros (r & x & Hr & Hx & HN). destruct HX as (H1 & H2 & H3 & H4).
  assert (Lj : j < p). { rewrite <- H2, <- (proj1 (Forall_forall _ _) H4 r Hr). apply nth_error_Some. congruence. }
  exists (fdiv o (ndot o (colv (f0 o) X j) (colv (f0 o) X j)) (fcast o n)). split.
  - unfold cols. rewrite map_map, H2. rewrite nth_error_map, (nth_error_nth' _ 0) by (rewrite seq_length; lia). rewrite seq_nth by lia. reflexivity.
  - apply s_divl. apply (sp_ndot o SP _ _ x); auto. left. unfold colv. apply in_map_iff. exists r. split; auto. apply nth_error_nth. exact Hx.
Qed.
Lemma lip_at k : k < p -> nth_error (map (fun c => fdiv o (ndot o c c) (fcast o n)) (cols (f0 o) X)) k = Some (mean_square o X k).
Proof using HX Hn1.
  intros Lk. destruct HX as (H1 & H2 & _). unfold cols. rewrite map_map, H2. rewrite nth_error_map, (nth_error_nth' _ 0) by (rewrite seq_length; lia).
  rewrite seq_nth by lia. cbn. unfold mean_square. rewrite H1. reflexivity.
Qed.

Definition pois (Xw : list F) : Prop := Xw <> [] /\ Forall (isn o) Xw.
Lemma upd_pois (t : targets F) Xw diff j Xw' : pois Xw \/ (length Xw = n /\ isnan diff) -> dm_update (dense_dm o) (design_matrix (Dataset X t)) Xw diff j = Ret Xw' -> pois Xw'.
Proof using HX Hn1 SP.
  intros HB E. cbn [dm_update dense_dm design_matrix] in E. unfold dense_update, mcol in E. destruct (_ <? _); [|discriminate]. cbn [bind] in E.
  unfold vaxpy in E. destruct (Nat.eqb_spec (length Xw) (length (colv (f0 o) X j))) as [HL|HL].
  2:{ rewrite col_len in HL. destruct HB as [[Hne HF]|[HE _]]; [|congruence]. destruct (colv (f0 o) X j) as [|y [|]]; try discriminate. injection E as <-. split.
      - destruct Xw; [congruence|discriminate].
      - apply Forall_forall. intros z Hz. apply in_map_iff in Hz as (x & <- & Hx). apply s_addl. rewrite Forall_forall in HF. exact (HF x Hx). }
  injection E as <-. split.
  - apply ne_len. rewrite map2_len by exact HL. rewrite HL, col_len. exact Hn1.
  - apply map2_forall. intros x y Hx Hy. destruct HB as [[_ HF]|[_ HN]].
    + apply s_addl. rewrite Forall_forall in HF. exact (HF x Hx).
    + apply s_addr, s_mull. exact HN.
Qed.
Lemma grad_fit d (t : targets F) Xw j g : df_gradient_j (quad_dense o) d (Dataset X t) Xw j = Ret g -> length Xw = n.
Proof using HX.
  intros E. cbn [df_gradient_j quad_dense] in E. unfold quad_dense_gradient_j in E. cbn [design_matrix] in E. next E. next E. unfold mcol in Ex. destruct (_ <? _); [|discriminate]. injection Ex as <-.
  unfold vdot in Ex0. destruct (Nat.eqb_spec (length (colv (f0 o) X j)) (length Xw)) as [HL|]; [|discriminate]. rewrite <- HL. apply col_len.
Qed.
Lemma grad_pois d (t : targets F) Xw j g : pois Xw -> df_gradient_j (quad_dense o) d (Dataset X t) Xw j = Ret g -> isnan g.
Proof using SP.
  intros (Hne & HF) E. cbn [df_gradient_j quad_dense] in E. unfold quad_dense_gradient_j in E. cbn [design_matrix] in E.
  next E. next E. next E. injection E as <-. apply s_divl, s_subl. unfold vdot in Ex0. destruct (Nat.eqb_spec (length x) (length Xw)) as [HL|]; [|discriminate].
  injection Ex0 as <-. destruct Xw as [|u Xw]; [congruence|]. apply (sp_ndot o SP _ _ u); [exact HL|right; left; reflexivity|exact (Forall_inv HF)].
Qed.
Lemma val_pois d (t : targets F) Xw v : target1_wf n t -> pois Xw -> df_value (quad_dense o) d (Dataset X t) Xw = Ret v -> isnan v.
Proof using SP Hn1.
  intros Ht (Hne & HF) E. cbn [df_value quad_dense] in E. unfold quad_value in E. next E. next E. next E. injection E as <-. apply s_divl.
  unfold vdot in Ex1. rewrite Nat.eqb_refl in Ex1. injection Ex1 as <-. unfold vsub, vbin in Ex0.
  assert (HX0 : x <> []). { apply ne_len. destruct (single_ok o n t Ht) as (y & Ey & Ly). cbn [dtargets] in Ex. rewrite Ey in Ex. injection Ex as <-. lia. }
  destruct (Nat.eqb_spec (length x) (length Xw)) as [HL|_].
  2:{ destruct Xw as [|u Xw]; [congruence|]. destruct x as [|z x]; [congruence|]. apply Forall_inv in HF.
      assert (exists l, x0 = fsub o z u :: l) as (l & ->).
      { destruct x; [injection Ex0 as <-; eexists; reflexivity|]. destruct Xw; [|discriminate]. injection Ex0 as <-. eexists. reflexivity. }
      apply (sp_ndot o SP _ _ (fsub o z u)); [reflexivity|left; left; reflexivity|]. apply s_subr. exact HF. }
  injection Ex0 as <-. destruct Xw as [|u Xw]; [congruence|]. destruct x as [|z x]; [discriminate|].
  apply (sp_ndot o SP _ _ (fsub o z u)); [reflexivity|left; left; reflexivity|]. apply s_subr. exact (Forall_inv HF).
Qed.

Section One.
Context {P : Type} (pen : Penalty F P) (q : P) (Bad : F -> Prop) (HPn : pen_sh o pen q).
Hypothesis (Hprox : forall v s, isnan v -> Bad (pen_prox pen q v s)).
Hypothesis (Hprox0 : forall v s, isnan v -> isnan s -> isnan (pen_prox pen q v s)).
Lemma poison_dense t d0 s mi me tol K a v w j : target1_wf n t -> nan_column o X j -> p <= s -> 2 <= me ->
  coordinate_descent o (dense_dm o) (quad_dense o) pen srt (Dataset X t) d0 q s mi me tol K a v = Ret w ->
  w = repeat (f0 o) p \/ forall k x, k < p -> nth_error w k = Some x ->
    (feq o (mean_square o X k) (f0 o) = true -> x = f0 o) /\ (feq o (mean_square o X k) (f0 o) = false -> Bad x) /\
    (isnan (mean_square o X k) -> isnan x).
Proof using All.
  intros Ht HC Hs Hme E. destruct (quad_dense_sh o n p X t d0 HX Ht) as (d & HI & G).
  assert (Hd : q_lipschitz d = map (fun c => fdiv o (ndot o c c) (fcast o n)) (cols (f0 o) X)).
  { cbn [df_initialize quad_dense] in HI. unfold quad_dense_initialize in HI. next HI. next HI. injection HI as <-. cbn [q_lipschitz dtargets design_matrix].
    rewrite (target1_ns n t Ht). reflexivity. }
  destruct (nan_lip j HC) as (l & Hl & Nl). rewrite <- Hd in Hl.
  destruct (poison_cd o nan_laws_of nan_spread_of (dense_dm o) (quad_dense o) pen srt (Dataset X t) d q pois Bad
    (fun Xw df k Xw' H => upd_pois t Xw df k Xw' (or_introl H)) (fun Xw df k Xw' g Hg H => upd_pois t Xw df k Xw' (or_intror (conj (grad_fit d t Xw k g Hg) H)))
    (grad_pois d t) (fun Xw v => val_pois d t Xw v Ht) Hprox Hprox0 LF VS n p d0 s mi me tol K a v w j l (dense_sh o n p X HX) HPn (target1_ns n t Ht) HI G Hs Hme Hl Nl E) as [H|H]; [left; exact H|right].
  intros k x Hk Hx. apply (H k Hk x (mean_square o X k) Hx). cbn [df_step_size quad_dense]. rewrite Hd. apply lip_at. exact Hk.
Qed.
End One.

(** *** several tasks *)
Lemma mset_sh {A} r c (m m' : mat A) i k v : shaped r c m -> mset m i k v = Ret m' -> shaped r c m'.
Proof using.
  intros HS E. assert (E' := E). unfold mset in E'. next E'. apply vget_ne in Ex. next E'. unfold vset in Ex0. destruct (Nat.ltb_spec k (length x)) as [Hk|]; [|discriminate].
  destruct HS as (H1 & H2 & H3 & H4). assert (Hi : i < r) by (rewrite <- H1, <- H3; apply nth_error_Some; congruence).
  assert (Hk' : k < c). { rewrite <- H2, <- (proj1 (Forall_forall _ _) H4 x); [exact Hk|eapply nth_error_In; eauto]. }
  destruct (t_mset r c m i k v (conj H1 (conj H2 (conj H3 H4))) Hi Hk') as (m2 & E2 & S2). congruence.
Qed.
Section Upd.
Variables (T : nat) (diff : list F) (j : nat) (HN : Forall (isn o) diff).
Lemma upd_row i ts : forall XW XW', shaped n T XW ->
  foldM (fun XW t => v <- mget XW i t ;; d <- vget diff t ;; x <- mget X i j ;; mset XW i t (fadd o v (fmul o d x))) ts XW = Ret XW' ->
  shaped n T XW' /\ forall a b x, cell XW' a b x -> isn o x \/ (cell XW a b x /\ ~ (a = i /\ In b ts)).
Proof using HN SP.
  induction ts as [|t ts IH]; intros XW XW' HS E; cbn [foldM] in E.
  - injection E as <-. split; [exact HS|]. intros a b x Hx. right. split; [exact Hx|]. intros [_ []].
  - next E. next Ex. next Ex. next Ex. destruct (IH _ _ (mset_sh _ _ _ _ _ _ _ HS Ex) E) as [S1 C1]. split; [exact S1|].
    intros a b y Hy. destruct (C1 a b y Hy) as [H|[H Hni]]; [left; exact H|].
    destruct (mset_cell _ _ _ _ _ _ _ _ Ex H) as [(-> & -> & ->)|[Hne H']].
    + left. apply s_addr, s_mull. apply vget_ne in Ex1. rewrite Forall_forall in HN. apply HN. eapply nth_error_In; eauto.
    + right. split; [exact H'|]. intros [Ha [Hb|Hb]]; [subst; destruct Hne; congruence|]. apply Hni. auto.
Qed.
Lemma upd_rows is : forall XW XW', shaped n T XW ->
  foldM (fun XW i => foldM (fun XW t => v <- mget XW i t ;; d <- vget diff t ;; x <- mget X i j ;; mset XW i t (fadd o v (fmul o d x))) (seq 0 (mnc XW)) XW) is XW = Ret XW' ->
  shaped n T XW' /\ forall a b x, cell XW' a b x -> isn o x \/ (cell XW a b x /\ ~ In a is).
Proof using HN Hn1 SP.
  induction is as [|i is IH]; intros XW XW' HS E; cbn [foldM] in E.
  - injection E as <-. split; [exact HS|]. intros a b x Hx. right. split; [exact Hx|]. intros [].
  - next E. destruct (upd_row _ _ _ _ HS Ex) as [S0 C0]. destruct (IH _ _ S0 E) as [S1 C1]. split; [exact S1|].
    intros a b y Hy. destruct (C1 a b y Hy) as [H|[H Hni]]; [left; exact H|]. destruct (C0 a b y H) as [H'|[H' Hn]]; [left; exact H'|right].
    split; [exact H'|]. intros [Ha|Ha]; [|auto]. apply Hn. split; [auto|]. destruct (cell_lt _ _ _ _ _ _ HS H') as [_ Hb].
    apply in_seq. destruct HS as (_ & H2 & _). lia.
Qed.
End Upd.
Variables (T : nat) (t : targets F).
Hypotheses (Ht : target_wf n T t) (HT : 1 <= T).
Lemma upd_mpois XW diff j XW' : shaped n T XW -> length diff = T -> Forall (isn o) diff ->
  dm_update_mt (dense_dm o) (design_matrix (Dataset X t)) XW diff j = Ret XW' -> mpoisoned o n T XW'.
Proof using SP Hn1 HT.
  intros HS _ HN E. cbn [dm_update_mt dense_dm design_matrix] in E. unfold dense_update_mt in E.
  destruct (upd_rows T diff j HN _ _ _ HS E) as [S1 C1]. split; [exact S1|]. intros a b x Hx.
  destruct (C1 a b x Hx) as [H|[H Hni]]; [exact H|]. exfalso. apply Hni. destruct (cell_lt _ _ _ _ _ _ HS H) as [Ha _]. apply in_seq. destruct HS as (H1 & _). lia.
Qed.
Lemma mpois_col XW k : mpoisoned o n T XW -> k < T -> exists x c, colv (f0 o) XW k = x :: c /\ isnan x.
Proof using Hn1 HT.
  intros ((H1 & H2 & H3 & H4) & HC) Hk. unfold colv. destruct (mrows XW) as [|r rs] eqn:Er; [cbn in H3; lia|].
  exists (nth k r (f0 o)), (map (fun r => nth k r (f0 o)) rs). split; [reflexivity|]. apply (HC 0 k). exists r. rewrite Er. split; [reflexivity|].
  apply nth_error_nth'. rewrite (Forall_inv H4). lia.
Qed.
Lemma grad_mpois d XW j g : mpoisoned o n T XW -> dfm_gradient_j (qmt_dense o) d (Dataset X t) XW j = Ret g -> Forall (isn o) g.
Proof using SP Hn1 HT.
  intros HM E. cbn [dfm_gradient_j qmt_dense] in E. unfold qmt_dense_gradient_j in E. cbn [design_matrix] in E. next E. next E. next E. next E. injection E as <-.
  apply Forall_forall. intros y Hy. apply in_map_iff in Hy as (u & <- & Hu). apply s_divl.
  assert (HX0 : forall a, In a x0 -> isn o a).
  2:{ unfold vsub, vbin in Ex2. destruct (_ =? _).
      { injection Ex2 as <-. revert u Hu. apply Forall_forall. apply map2_forall. intros a b Ha _. apply s_subl. exact (HX0 a Ha). }
      destruct x0 as [|a [|a' x0]]; [destruct x1 as [|? [|]]; try discriminate; injection Ex2 as <-; destruct Hu| |destruct x1 as [|? [|]]; try discriminate].
      - injection Ex2 as <-. apply in_map_iff in Hu as (b & <- & _). apply s_subl, HX0. left. reflexivity.
      - injection Ex2 as <-. apply (in_map_iff (fun x => fsub o x f) (a :: a' :: x0)) in Hu as (b & <- & Hb). apply s_subl, HX0. exact Hb. }
  intros a Ha.
  unfold vtm in Ex0. destruct (Nat.eqb_spec (mnr XW) (length x)) as [HL|]; [|discriminate]. injection Ex0 as <-. apply in_map_iff in Ha as (c & <- & Hc).
  unfold cols in Hc. apply in_map_iff in Hc as (k & <- & Hk). apply in_seq in Hk. assert (HM' := HM). destruct HM' as ((H1 & H2 & H3 & H4) & _).
  destruct (mpois_col XW k HM ltac:(lia)) as (z & c & Ec & Hz). assert (Lc : length (colv (f0 o) XW k) = length x) by (unfold colv; rewrite map_length; congruence).
  apply (sp_ndot o SP _ _ z); [exact Lc|left; rewrite Ec; left; reflexivity|exact Hz].
Qed.
Lemma val_mpois d XW v : mpoisoned o n T XW -> dfm_value (qmt_dense o) d (Dataset X t) XW = Ret v -> isn o v.
Proof using SP Hn1 Ht HT.
  intros ((H1 & H2 & H3 & H4) & HC) E. cbn [dfm_value qmt_dense] in E. unfold qmt_value in E. next E. injection E as <-. apply s_divl.
  destruct (target_ns n T t Ht) as (_ & _ & (Y1 & Y2 & Y3 & Y4)). cbn [dtargets] in Ex. unfold msub in Ex. replace ((mnr (as_multi_tasks t) =? mnr XW) && (mnc (as_multi_tasks t) =? mnc XW)) with true in Ex by (rewrite Y1, Y2, H1, H2, !Nat.eqb_refl; reflexivity). injection Ex as <-. cbn [mrows].
  destruct (mrows (as_multi_tasks t)) as [|ry yr]; [cbn in Y3; lia|]. destruct (mrows XW) as [|rx xr] eqn:EX; [cbn in H3; lia|].
  assert (L1 := Forall_inv Y4). assert (L2 := Forall_inv H4). cbv beta in L1, L2. destruct ry as [|a ry]; [cbn in L1; lia|]. destruct rx as [|b rx]; [cbn in L2; lia|].
  apply (sp_sums o SP _ (sq o (fsub o a b))); [left; reflexivity|]. apply s_mull, s_subr. apply (HC 0 0). exists (b :: rx). rewrite EX. split; reflexivity.
Qed.
Section Many.
Context {P : Type} (pen : PenaltyMT F P) (q : P) (HPn : bpen_sh o T pen q).
Hypothesis (Hprox : forall v s, v <> [] -> Forall (isn o) v -> Forall (isn o) (bpen_prox pen q v s)).
Lemma poison_dense_mt d0 s mi me tol K a v W j : nan_column o X j -> p <= s -> 2 <= me ->
  block_coordinate_descent o (dense_dm o) (qmt_dense o) pen srt (Dataset X t) d0 q s mi me tol K a v = Ret W ->
  W = mzeros o p T \/ (shaped p T W /\ forall k r, k < p -> nth_error (mrows W) k = Some r ->
    (feq o (mean_square o X k) (f0 o) = true -> Forall (eq (f0 o)) r) /\ (feq o (mean_square o X k) (f0 o) = false -> Forall (isn o) r)).
Proof using All.
  intros HC Hs Hme E. destruct (qmt_dense_sh o n p T X t d0 HX Ht) as (d & HI & G). destruct (target_ns n T t Ht) as (N1 & N2 & _).
  assert (Hd : qm_lipschitz d = map (fun c => fdiv o (ndot o c c) (fcast o n)) (cols (f0 o) X)).
  { cbn [dfm_initialize qmt_dense] in HI. unfold qmt_dense_initialize in HI. next HI. injection HI as <-. cbn [qm_lipschitz dtargets design_matrix]. rewrite N1. reflexivity. }
  destruct (nan_lip j HC) as (l & Hl & Nl). rewrite <- Hd in Hl.
  assert (Hprox' : forall v s, length v = T -> Forall (isn o) v -> Forall (isn o) (bpen_prox pen q v s)) by (intros v' s' Lv; apply Hprox, ne_len; lia).
  destruct (poison_bcd o LF nan_laws_of nan_spread_of (dense_dm o) (qmt_dense o) pen srt VS n p T (Dataset X t) d q (dense_sh o n p X HX) HPn N1 N2 G HT
    upd_mpois (grad_mpois d) (val_mpois d) Hprox' d0 s mi me tol K a v W j l HI Hs Hme Hl Nl E) as [H|[HS H]]; [left; exact H|right].
  split; [exact HS|]. intros k r Hk Hr.
  assert (Hlk : nth_error (dfm_step_size (qmt_dense o) d) k = Some (mean_square o X k)) by (cbn [dfm_step_size qmt_dense]; rewrite Hd; apply lip_at; exact Hk).
  split; intros He; apply nth_error_all; intros b x Hx; destruct (H k b x _ (cell_row _ _ _ Hr b x Hx) Hlk) as [A1 A2]; [symmetry|]; auto.
Qed.
End Many.
End G.
