(** The null model: runs that stop before their first update.  Exact reals and IEEE floats. *)
From Coq Require Import List ZArith Bool Arith Lia Reals Lra Permutation.
From Flocq Require Import Core BinarySingleNaN.
From Verif Require Import Ops Arr MUtils MDatasets MDatafits MDatafitsMT MPenalties MBlockPenalties MCd MBcd MHyper MEstimators XR IEEE PBase PLaws SpecSolve PStruct PShape PRuns.
Import ListNotations.
Local Open Scope nat_scope.

(** what is used of the arithmetic *)
Section Laws.
Context {F : Type} (o : FOps F).
(** zero or NaN *)
Definition zn (x : F) : Prop := feq o x (f0 o) = true \/ fisnan o x = true.
Record null_laws : Prop := {
  nl_zero : zn (f0 o);
  nl_acc : forall a x, zn a -> zn (fadd o a (fmul o x (f0 o)));
  nl_dot : forall a k, zn (ndot o a (repeat (f0 o) k));
  nl_grad : forall z b M n t, zn z -> fisnan o b = true \/ fle o (fabs o b) M = true ->
    fle o (fdiv o M (fcast o n)) t = true ->
    flt o (f0 o) (fsub o (fabs o (fdiv o (fsub o z b) (fcast o n))) t) = false;
  nl_nangrad : forall z b n t, fisnan o b = true ->
    flt o (f0 o) (fsub o (fabs o (fdiv o (fsub o z b) (fcast o n))) t) = false;
  nl_max_l : forall x m, fisnan o x = true \/ fle o x (fmax o x m) = true;
  nl_max_r : forall x m, fisnan o x = true \/ fle o x (fmax o m x) = true;
  nl_max_kl : forall a x m, fle o a m = true -> fle o a (fmax o x m) = true;
  nl_max_kr : forall a x m, fle o a m = true -> fle o a (fmax o m x) = true;
  nl_abs : forall x, fisnan o (fabs o x) = fisnan o x;
  nl_max0 : forall x, flt o (f0 o) x = false -> fmax o (f0 o) x = f0 o;
  nl_max00 : fmax o (f0 o) (f0 o) = f0 o;
  nl_maxn : fmax o (fninf o) (f0 o) = f0 o;
  nl_ninf : forall t, fle o (f0 o) t = true -> fle o (fninf o) t = true;
  nl_eq0 : feq o (f0 o) (f0 o) = true
}.
End Laws.

Section Generic.
Context {F : Type} (o : FOps F) (NL : null_laws o) (srt : list F -> list nat).
Notation z0 := (f0 o).

Lemma fold_repeat k t : fle o z0 t = true -> fle o (fold_max o (fninf o) (repeat z0 k)) t = true.
Proof using NL.
  intros H. destruct k as [|k]; [apply (nl_ninf o NL); exact H|]. unfold fold_max. simpl. rewrite (nl_maxn o NL).
  assert (E : fold_left (fun m x => fmax o m x) (repeat z0 k) z0 = z0).
  { clear H. induction k as [|k IH]; auto. simpl. rewrite (nl_max00 o NL); auto. }
  rewrite E. exact H.
Qed.
Lemma mapM_const {A B} (f : A -> res B) b l : (forall a, In a l -> f a = Ret b) -> mapM f l = Ret (repeat b (length l)).
Proof using.
  induction l as [|a l IH]; intros H; simpl; auto. rewrite (H a) by (left; auto). rewrite IH by (intros; apply H; right; auto). reflexivity.
Qed.
Lemma vget_zeros k j : j < k -> vget (vzeros o k) j = Ret z0.
Proof using.
  intros H. unfold vget, vzeros. rewrite repeat_tab, nth_error_tab by auto. reflexivity.
Qed.
Lemma scores_null score p g : length g = p -> (forall x, In x g -> score z0 x = z0) ->
  scores o score (vzeros o p) g (seq 0 p) = Ret (repeat z0 p, fold_max o (fninf o) (repeat z0 p)).
Proof using.
  intros HL HS. unfold scores.
  rewrite (mapM_const _ z0).
  - rewrite combine_length, seq_length, HL, Nat.min_id. reflexivity.
  - intros [x j] Hin. simpl. pose proof (in_combine_l _ _ _ _ Hin). pose proof (in_combine_r _ _ _ _ Hin) as Hj. apply in_seq in Hj.
    rewrite vget_zeros by lia. cbn [bind]. rewrite HS; auto.
Qed.
Lemma mapM_in {A B} (f : A -> res B) l bs : mapM f l = Ret bs -> forall b, In b bs -> exists a, In a l /\ f a = Ret b.
Proof using.
  revert bs. induction l as [|a l IH]; intros bs H b Hb; simpl in H; [inversion H; subst; destruct Hb|].
  apply bind_inv in H. destruct H as (b0 & E0 & H). apply bind_inv in H. destruct H as (bs' & E1 & H). inversion H; subst.
  destruct Hb as [<-|Hb]; [exists a; split; [left|]; auto|]. destruct (IH _ E1 b Hb) as (a' & Ha & Ea). exists a'. split; [right|]; auto.
Qed.

(** a run whose first scores are all zero returns the initial point *)
Lemma cd_null {DM D P} (dm : DesignMatrix F DM) (df : Datafit F DM D) (pen : Penalty F P) score p_ ds d d' n p ws0 it me tol K acc v :
  dm_sh dm (design_matrix ds) n p -> n_samples (dtargets ds) = n -> df_initialize df d ds = Ret d' ->
  (forall w g ws, pen_subdiff_distance pen p_ w g ws = scores o score w g ws) ->
  (forall j, j < p -> exists g, df_gradient_j df d' ds (vzeros o n) j = Ret g /\ score z0 g = z0) ->
  fle o z0 tol = true ->
  coordinate_descent o dm df pen srt ds d p_ ws0 it me tol K acc v = Ret (repeat z0 p).
Proof using NL.
  intros HD Hn Ed HP HG HT. unfold coordinate_descent. rewrite (sh_nf _ _ _ _ HD), Hn, Ed. cbn [bind].
  destruct it as [|it]; cbn [outer_loop]; [reflexivity|].
  unfold opt_cond_violation, construct_grad.
  destruct (t_mapM (fun j => df_gradient_j df d' ds (vzeros o n) j) (fun _ => True) (seq 0 p)) as (g & Eg & _ & HL).
  { intros j Hj. apply in_seq in Hj. destruct (HG j) as (g & Eg & _); [lia|]. exists g. auto. }
  rewrite Eg. cbn [bind]. rewrite HP, scores_null.
  - cbn [bind]. rewrite fold_repeat by auto. reflexivity.
  - rewrite seq_length in HL. exact HL.
  - intros x Hx. destruct (mapM_in _ _ _ Eg x Hx) as (j & Hj & Ej). apply in_seq in Hj. destruct (HG j) as (g' & Eg' & HS); [lia|]. congruence.
Qed.
Lemma fit_null {DM A} chk (fit : params F -> dataset DM F -> res A) pr ds z :
  (forall q, chk pr = Ok q -> q = pr) -> fit pr ds = Ret z -> fit_unchecked chk fit pr ds = match chk pr with Ok _ => Ret (Ok z) | Err e => Ret (Err e) end.
Proof using.
  intros HQ E. unfold fit_unchecked. destruct (chk pr) as [q|e] eqn:Ec; auto. rewrite (HQ q eq_refl), E. reflexivity.
Qed.

(** gradients at the zero model *)
Lemma dense_grad0 n p X t y d : shaped n p X -> target1_wf n t -> single_target z0 t = Ret y ->
  exists d', df_initialize (quad_dense o) d (Dataset X t) = Ret d' /\ q_Xty d' = map (fun c => ndot o c y) (cols z0 X) /\
  forall j, j < p -> exists z b, zn o z /\ nth_error (q_Xty d') j = Some b /\
    df_gradient_j (quad_dense o) d' (Dataset X t) (vzeros o n) j = Ret (fdiv o (fsub o z b) (fcast o n)).
Proof using NL.
  intros HX Ht Hy. cbn [df_initialize quad_dense]. unfold quad_dense_initialize. cbn [dtargets design_matrix].
  destruct (single_ok o n t Ht) as (y' & Ey & HL). rewrite Hy in Ey. inversion Ey; subst y'. rewrite Hy. cbn [bind].
  assert (HX' := HX). destruct HX' as (H1 & H2 & H3). destruct (cols_length z0 _ _ _ HX) as [L1 L2].
  unfold mtv. rewrite H1, HL, Nat.eqb_refl. cbn [bind]. eexists. split; [reflexivity|]. split; [reflexivity|].
  intros j Hj. cbn [df_gradient_j quad_dense q_Xty]. unfold quad_dense_gradient_j. cbn [design_matrix q_Xty dtargets].
  destruct (t_mcol z0 n p X j HX Hj) as (c & Ec & Lc). rewrite Ec. cbn [bind]. unfold vdot, vzeros. rewrite repeat_length, Lc, Nat.eqb_refl. cbn [bind].
  destruct (nth_error (map (fun c0 => ndot o c0 y) (cols z0 X)) j) as [b|] eqn:Eb.
  - exists (ndot o c (repeat z0 n)), b. split; [apply (nl_dot o NL)|]. split; auto. unfold vget. rewrite Eb. cbn [bind].
    rewrite (target1_ns n t Ht). reflexivity.
  - apply nth_error_None in Eb. rewrite map_length in Eb. lia.
Qed.
Lemma foldM_zn (f : F -> Z -> res F) l : (forall a z, In z l -> zn o a -> exists a', f a z = Ret a' /\ zn o a') -> forall a, zn o a -> exists a', foldM f l a = Ret a' /\ zn o a'.
Proof using.
  induction l as [|z l IH]; intros H a Ha; simpl; [eauto|].
  destruct (H a z) as (a' & E & Ha'); [left; auto|auto|]. rewrite E. cbn [bind]. apply IH; auto. intros; apply H; auto. right; auto.
Qed.
Lemma vgetz_zeros k z : (0 <= z < Z.of_nat k)%Z -> vgetz (vzeros o k) z = Ret z0.
Proof using.
  intros H. unfold vgetz. destruct (z <? 0)%Z eqn:E; [lia|]. apply vget_zeros. lia.
Qed.
Lemma mapM_len {A B} (f : A -> res B) l : forall bs, mapM f l = Ret bs -> length bs = length l.
Proof using.
  induction l as [|a l IH]; intros bs H; simpl in H; [inversion H; reflexivity|].
  apply bind_inv in H. destruct H as (b & _ & H). apply bind_inv in H. destruct H as (bs' & E & H). inversion H; subst. simpl. rewrite (IH _ E). reflexivity.
Qed.
(** the inner products X_j . y of a compressed-column matrix, as accumulated by the code *)
Definition csc_xty (X : csc F) (y : list F) (j : nat) : res F :=
  r <- csc_range X j ;;
  foldM (fun acc idx => x <- vgetz (cdata X) idx ;; i <- vgetz (cindices X) idx ;; yi <- vgetz y i ;; Ret (fadd o acc (fmul o x yi))) r z0.
Lemma fold_snd X (y : list F) r : forall a b x, foldM (fun acc idx => x <- vgetz (cdata X) idx ;; i <- vgetz (cindices X) idx ;; yi <- vgetz y i ;;
    Ret (fadd o (fst acc) (fmul o x x), fadd o (snd acc) (fmul o x yi))) r (a, b) = Ret x ->
  foldM (fun acc idx => x <- vgetz (cdata X) idx ;; i <- vgetz (cindices X) idx ;; yi <- vgetz y i ;; Ret (fadd o acc (fmul o x yi))) r b = Ret (snd x).
Proof using.
  induction r as [|z r IH]; intros a b x H; simpl in *; [inversion H; reflexivity|].
  destruct (vgetz (cdata X) z) as [v|]; [|discriminate]. cbn [bind] in *. destruct (vgetz (cindices X) z) as [i|]; [|discriminate]. cbn [bind] in *.
  destruct (vgetz y i) as [yi|]; [|discriminate]. cbn [bind] in *. eapply IH. exact H.
Qed.
Lemma sparse_grad0 n p X t y d : csc_wf n p X -> target1_wf n t -> single_target z0 t = Ret y ->
  exists d', df_initialize (quad_sparse o) d (Dataset X t) = Ret d' /\ mapM (csc_xty X y) (seq 0 p) = Ret (q_Xty d') /\ length (q_Xty d') = p /\
  forall j, j < p -> exists z b, zn o z /\ nth_error (q_Xty d') j = Some b /\
    df_gradient_j (quad_sparse o) d' (Dataset X t) (vzeros o n) j = Ret (fdiv o (fsub o z b) (fcast o n)).
Proof using NL.
  intros HX Ht Hy. destruct (quad_sparse_sh o n p X t d HX Ht) as (d' & Ed & _). exists d'. split; [exact Ed|].
  cbn [df_initialize quad_sparse] in Ed. unfold quad_sparse_initialize in Ed. cbn [dtargets design_matrix] in Ed.
  pose proof (sh_nf _ _ _ _ (sparse_sh o n p X HX)) as Hp. cbn [dm_n_features sparse_dm] in Hp. rewrite Hp, Hy in Ed. cbn [bind] in Ed.
  apply bind_inv in Ed. destruct Ed as (l & El & Ed). inversion Ed; subst d'; clear Ed. cbn [q_Xty].
  assert (HM : forall s l, mapM (fun j => r <- csc_range X j ;; '(nrm2, xty) <- foldM (fun acc idx => x <- vgetz (cdata X) idx ;; i <- vgetz (cindices X) idx ;; yi <- vgetz y i ;;
    Ret (fadd o (fst acc) (fmul o x x), fadd o (snd acc) (fmul o x yi))) r (z0, z0) ;; Ret (fdiv o nrm2 (fcast o (n_samples t)), xty)) s = Ret l -> mapM (csc_xty X y) s = Ret (map snd l)).
  { induction s as [|j s IH]; intros l0 E; simpl in E; [inversion E; reflexivity|]. apply bind_inv in E. destruct E as ((a & b) & E0 & E).
    apply bind_inv in E. destruct E as (bs & E1 & E). inversion E; subst. simpl. unfold csc_xty at 1. apply bind_inv in E0. destruct E0 as (r & Er & E0). rewrite Er. cbn [bind].
    apply bind_inv in E0. destruct E0 as ((u & u') & Ef & Eu). inversion Eu; subst. rewrite (fold_snd _ _ _ _ _ _ Ef). cbn [bind snd]. rewrite (IH _ E1). reflexivity. }
  apply HM in El. split; [exact El|].
  assert (HL : length (map snd l) = p) by (apply mapM_len in El; rewrite seq_length in El; auto). split; [exact HL|].
  intros j Hj. cbn [df_gradient_j quad_sparse]. unfold quad_sparse_gradient_j. cbn [design_matrix q_Xty dtargets].
  destruct (t_range o n p X j HX Hj) as (r & Er & Hr) || destruct (t_range n p X j HX Hj) as (r & Er & Hr). rewrite Er. cbn [bind].
  edestruct (foldM_zn (fun acc idx => x <- vgetz (cdata X) idx ;; i <- vgetz (cindices X) idx ;; v <- vgetz (vzeros o n) i ;; Ret (fadd o acc (fmul o x v))) r) as (z & Ez & Hz); [|apply (nl_zero o NL)|].
  - intros a z Hz Ha. specialize (Hr z Hz). destruct (t_data n p X z HX Hr) as (x & Ex & _). rewrite Ex. cbn [bind].
    destruct (t_index n p X z HX Hr) as (i & Ei & Hi). rewrite Ei. cbn [bind]. rewrite vgetz_zeros by exact Hi. cbn [bind]. eexists. split; [reflexivity|]. apply (nl_acc o NL); auto.
  - rewrite Ez. cbn [bind]. destruct (nth_error (map snd l) j) as [b|] eqn:Eb; [|apply nth_error_None in Eb; lia].
    exists z, b. split; auto. split; auto. unfold vget. rewrite Eb. cbn [bind]. rewrite (target1_ns n t Ht). reflexivity.
Qed.

(** the largest absolute value, in both operand orders used by the code *)
Definition below (l : list F) (M : F) : Prop := forall b, In b l -> fisnan o b = true \/ fle o (fabs o b) M = true.
Lemma fold_keep (f : F -> F -> F) l : (forall a m x, fle o a m = true -> fle o a (f m x) = true) ->
  forall a m, fle o a m = true -> fle o a (fold_left f l m) = true.
Proof using. intros H. induction l as [|x l IH]; intros a m Ha; simpl; auto. Qed.
Lemma fold_below (f : F -> F -> F) l : (forall a m x, fle o a m = true -> fle o a (f m x) = true) ->
  (forall m x, fisnan o x = true \/ fle o (fabs o x) (f m x) = true) -> forall m, below l (fold_left f l m).
Proof using.
  intros H1 H2. induction l as [|x l IH]; intros m b Hb; [destruct Hb|]. simpl. destruct Hb as [<-|Hb]; [|apply IH; auto].
  destruct (H2 m x) as [H|H]; [left; auto|right]. apply fold_keep; auto.
Qed.
Lemma max1_below l m : below l (fold_left (fun max_val x => fmax o (fabs o x) max_val) l m).
Proof using NL.
  apply fold_below; intros; [apply (nl_max_kl o NL); auto|]. rewrite <- (nl_abs o NL x). apply (nl_max_l o NL).
Qed.
Lemma max2_below l m : below l (fold_left (fun max_val x => fmax o max_val (fabs o x)) l m).
Proof using NL.
  apply fold_below; intros; [apply (nl_max_kr o NL); auto|]. rewrite <- (nl_abs o NL x). apply (nl_max_r o NL).
Qed.

(** the three single-task scores at a zero coefficient *)
Lemma l1_zero p_ g : flt o z0 (fsub o (fabs o g) (l1_alpha p_)) = false -> l1_score o p_ z0 g = z0.
Proof using NL. intros H. unfold l1_score. rewrite (nl_eq0 o NL). apply (nl_max0 o NL). exact H. Qed.
Lemma l1l2_zero p_ g : flt o z0 (fsub o (fabs o g) (fmul o (en_alpha p_) (en_l1_ratio p_))) = false -> l1l2_score o p_ z0 g = z0.
Proof using NL. intros H. unfold l1l2_score. rewrite (nl_eq0 o NL). apply (nl_max0 o NL). exact H. Qed.
Lemma mcp_zero p_ g : flt o z0 (fsub o (fabs o g) (mcp_alpha p_)) = false -> mcp_score o p_ z0 g = z0.
Proof using NL. intros H. unfold mcp_score. rewrite (nl_eq0 o NL). apply (nl_max0 o NL). exact H. Qed.

(** C19, single task *)
Lemma c19_dense n p X t y am : shaped n p X -> target1_wf n t -> single_target z0 t = Ret y -> compute_alpha_max o X y = Ret am ->
  forall pr, fle o z0 (p_tolerance pr) = true ->
  (fle o am (p_alpha pr) = true -> lasso_fit_dense o srt pr (Dataset X t) = Ret (repeat z0 p) /\ mcp_fit_dense o srt pr (Dataset X t) = Ret (repeat z0 p)) /\
  (fle o am (fmul o (p_alpha pr) (p_shape pr)) = true -> elastic_net_fit_dense o srt pr (Dataset X t) = Ret (repeat z0 p)).
Proof using NL.
  intros HX Ht Hy Ha pr HT. destruct (dense_grad0 n p X t y (quadratic_new o) HX Ht Hy) as (d' & Ed & EX & HG).
  assert (HD := dense_sh o n p X HX). assert (Hn := target1_ns n t Ht).
  unfold compute_alpha_max in Ha. apply bind_inv in Ha. destruct Ha as (Xty & E & Ha). injection Ha as Ham.
  assert (EX' : Xty = q_Xty d'). { rewrite EX. unfold mtv in E. destruct (mnr X =? length y); inversion E. reflexivity. } subst Xty.
  pose proof (max1_below (q_Xty d') z0) as HB. set (M := fold_left _ _ _) in *. destruct HX as (Hr & _). rewrite Hr in Ham.
  assert (HS : forall th, fle o am th = true -> forall j, j < p -> exists g, df_gradient_j (quad_dense o) d' (Dataset X t) (vzeros o n) j = Ret g /\ flt o z0 (fsub o (fabs o g) th) = false).
  { intros th Hth j Hj. destruct (HG j Hj) as (z & b & Hz & Eb & Eg). eexists. split; [exact Eg|]. apply (nl_grad o NL z b M n); auto; [|rewrite Ham; auto].
    apply HB. eapply nth_error_In; eauto. }
  split; [intros H; split|intros H].
  - unfold lasso_fit_dense. eapply cd_null; eauto; [reflexivity|]. cbv beta. intros j Hj. destruct (HS _ H j Hj) as (g & Eg & Hg). exists g. split; auto. apply l1_zero. exact Hg.
  - unfold mcp_fit_dense. eapply cd_null; eauto; [reflexivity|]. cbv beta. intros j Hj. destruct (HS _ H j Hj) as (g & Eg & Hg). exists g. split; auto. apply mcp_zero. exact Hg.
  - unfold elastic_net_fit_dense. eapply cd_null; eauto; [reflexivity|]. cbv beta. intros j Hj. destruct (HS _ H j Hj) as (g & Eg & Hg). exists g. split; auto. apply l1l2_zero. exact Hg.
Qed.
Lemma c19_sparse n p X t y am : csc_wf n p X -> target1_wf n t -> single_target z0 t = Ret y -> compute_alpha_max_sparse o X y = Ret am ->
  forall pr, fle o z0 (p_tolerance pr) = true ->
  (fle o am (p_alpha pr) = true -> lasso_fit_sparse o srt pr (Dataset X t) = Ret (repeat z0 p) /\ mcp_fit_sparse o srt pr (Dataset X t) = Ret (repeat z0 p)) /\
  (fle o am (fmul o (p_alpha pr) (p_shape pr)) = true -> elastic_net_fit_sparse o srt pr (Dataset X t) = Ret (repeat z0 p)).
Proof using NL.
  intros HX Ht Hy Ha pr HT. destruct (sparse_grad0 n p X t y (quadratic_new o) HX Ht Hy) as (d' & Ed & EX & _ & HG).
  assert (HD := sparse_sh o n p X HX). assert (Hn := target1_ns n t Ht).
  pose proof (sh_nf _ _ _ _ HD) as Hp. cbn [dm_n_features sparse_dm] in Hp.
  unfold compute_alpha_max_sparse in Ha. rewrite Hp in Ha. cbn [bind] in Ha. change (mapM _ (seq 0 p)) with (mapM (csc_xty X y) (seq 0 p)) in Ha. rewrite EX in Ha. cbn [bind] in Ha.
  injection Ha as Ham. pose proof (max2_below (q_Xty d') z0) as HB. set (M := fold_left _ _ _) in *.
  destruct (single_ok o n t Ht) as (y' & Ey & HL). rewrite Hy in Ey. inversion Ey; subst y'. rewrite HL in Ham.
  assert (HS : forall th, fle o am th = true -> forall j, j < p -> exists g, df_gradient_j (quad_sparse o) d' (Dataset X t) (vzeros o n) j = Ret g /\ flt o z0 (fsub o (fabs o g) th) = false).
  { intros th Hth j Hj. destruct (HG j Hj) as (z & b & Hz & Eb & Eg). eexists. split; [exact Eg|]. apply (nl_grad o NL z b M n); auto; [|rewrite Ham; auto].
    apply HB. eapply nth_error_In; eauto. }
  split; [intros H; split|intros H].
  - unfold lasso_fit_sparse. eapply cd_null; eauto; [reflexivity|]. cbv beta. intros j Hj. destruct (HS _ H j Hj) as (g & Eg & Hg). exists g. split; auto. apply l1_zero. exact Hg.
  - unfold mcp_fit_sparse. eapply cd_null; eauto; [reflexivity|]. cbv beta. intros j Hj. destruct (HS _ H j Hj) as (g & Eg & Hg). exists g. split; auto. apply mcp_zero. exact Hg.
  - unfold elastic_net_fit_sparse. eapply cd_null; eauto; [reflexivity|]. cbv beta. intros j Hj. destruct (HS _ H j Hj) as (g & Eg & Hg). exists g. split; auto. apply l1l2_zero. exact Hg.
Qed.
End Generic.
