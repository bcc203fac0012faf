(** Shapes of datasets, datafits and penalties, for any float arithmetic. *)
From Coq Require Import List ZArith Bool Arith Lia.
From Verif Require Import Ops Arr MUtils MDatasets MDatafits MDatafitsMT MPenalties MBlockPenalties MCd MBcd PBase PStruct SpecSolve.
Import ListNotations.

(** design matrices *)
Record dm_sh {F DM} (dm : DesignMatrix F DM) (D : DM) (n p : nat) : Prop := {
  sh_nf : dm_n_features dm D = Ret p;
  sh_upd : forall Xw diff j, length Xw = n -> j < p -> total (dm_update dm D Xw diff j) (fun l => length l = n);
  sh_ext : forall ws w, length w = p -> (forall j, In j ws -> j < p) -> total (dm_extrap dm D ws w n) (fun l => length l = n);
  sh_upd_mt : forall T XW diff j, shaped n T XW -> length diff = T -> j < p -> total (dm_update_mt dm D XW diff j) (shaped n T);
  sh_ext_mt : forall T ws W, shaped p T W -> (forall j, In j ws -> j < p) -> total (dm_extrap_mt dm D ws W n T) (shaped n T)
}.

(** datafits, after initialisation *)
Definition df_good {F DM D} (df : Datafit F DM D) (d : D) (ds : dataset DM F) (n p : nat) : Prop :=
  length (df_step_size df d) = p /\
  (forall Xw, length Xw = n -> total (df_value df d ds Xw) (fun _ => True)) /\
  (forall Xw j, length Xw = n -> j < p -> total (df_gradient_j df d ds Xw j) (fun _ => True)).
Definition dfm_good {F DM D} (df : DatafitMT F DM D) (d : D) (ds : dataset DM F) (n p T : nat) : Prop :=
  length (dfm_step_size df d) = p /\
  (forall XW, shaped n T XW -> total (dfm_value df d ds XW) (fun _ => True)) /\
  (forall XW j, shaped n T XW -> j < p -> total (dfm_gradient_j df d ds XW j) (fun g => length g = T)).

Section Dense.
Context {F : Type} (o : FOps F).
Lemma dense_sh n p X : shaped n p X -> dm_sh (dense_dm o) X n p.
Proof.
  intros HX. assert (HX' := HX). destruct HX' as (H1 & H2 & [H3 H4]). rewrite Forall_forall in H4. split; cbn [dm_n_features dm_update dm_extrap dm_update_mt dm_extrap_mt dense_dm].
  - congruence.
  - intros Xw diff j HL Hj. unfold dense_update. eapply t_bind; [apply (t_mcol _ n p); auto|]. intros c Hc. apply t_vaxpy; auto.
  - intros ws w Hw Hws. unfold dense_extrap. eapply t_conseq; [apply (t_mapM _ (fun _ => True))|].
    + intros row Hrow. eapply t_bind; [apply (t_mapM _ (fun _ => True))|intros; apply t_ret; auto].
      intros j Hj. specialize (Hws j Hj). eapply t_bind; [apply t_vget; rewrite (H4 row Hrow); lia|]. intros a _.
      eapply t_bind; [apply t_vget; lia|]. intros b _. apply t_ret; auto.
    + intros bs [_ HL]. congruence.
  - intros T XW diff j HXW Hd Hj. unfold dense_update_mt. destruct HXW as (E1 & E2 & E3). rewrite E1.
    apply (t_foldM (shaped n T)); [split; auto|]. intros s i Hi Hs. apply in_seq in Hi. assert (Hs' := Hs). destruct Hs' as (S1 & S2 & S3). rewrite S2.
    apply t_foldM; auto. intros s' t Ht Hs'. apply in_seq in Ht.
    eapply t_bind; [apply (t_mget n T); auto; lia|]. intros v _. eapply t_bind; [apply t_vget; lia|]. intros dd _.
    eapply t_bind; [apply (t_mget n p); auto; lia|]. intros x _. apply t_mset; auto; lia.
  - intros T ws W HW Hws. unfold dense_extrap_mt. destruct (cols_length (f0 o) _ _ _ HW) as [L1 L2].
    eapply t_bind; [apply (t_mapM _ (fun r => length r = T))|].
    + intros row Hrow. eapply t_conseq; [apply (t_mapM _ (fun _ => True))|intros bs [_ HL]; congruence].
      intros col Hcol. eapply t_bind; [apply (t_mapM _ (fun _ => True))|intros; apply t_ret; auto].
      intros j Hj. specialize (Hws j Hj). rewrite Forall_forall in L2.
      eapply t_bind; [apply t_vget; rewrite (H4 row Hrow); lia|]. intros a _.
      eapply t_bind; [apply t_vget; rewrite (L2 col Hcol); lia|]. intros b _. apply t_ret; auto.
    + intros rs [Hr HL]. apply reshape_shaped. rewrite <- H1, <- H3, <- HL. clear - Hr. induction Hr; simpl; auto. rewrite app_length. lia.
Qed.
End Dense.

Section Sparse.
Context {F : Type} (o : FOps F).
Lemma zrange_in lo hi z : In z (zrange lo hi) -> (lo <= z < hi)%Z.
Proof. unfold zrange. intros H. apply in_map_iff in H as (k & <- & Hk). apply in_seq in Hk. lia. Qed.
Definition idx_ok (n : nat) (c : csc F) (z : Z) : Prop :=
  (0 <= z < Z.of_nat (length (cdata c)))%Z.
Lemma t_range n p (c : csc F) j : csc_wf n p c -> j < p -> total (csc_range c j) (fun r => forall z, In z r -> idx_ok n c z).
Proof.
  intros (H1 & H2 & H3 & H4) Hj. rewrite Forall_forall in H4. unfold csc_range.
  eapply t_bind; [apply t_vget_in; lia|]. intros lo Hlo. eapply t_bind; [apply t_vget_in; lia|]. intros hi Hhi.
  apply t_ret. intros z Hz. apply zrange_in in Hz. apply H4 in Hlo, Hhi. red. lia.
Qed.
Lemma t_index n p (c : csc F) z : csc_wf n p c -> idx_ok n c z -> total (vgetz (cindices c) z) (fun i => (0 <= i < Z.of_nat n)%Z).
Proof.
  intros (H1 & H2 & H3 & H4) Hz. red in Hz. rewrite Forall_forall in H3. unfold vgetz. rewrite (proj2 (Z.ltb_ge _ _)) by lia.
  eapply t_conseq; [apply t_vget_in; lia|]. auto.
Qed.
Lemma t_data n p (c : csc F) z : csc_wf n p c -> idx_ok n c z -> total (vgetz (cdata c) z) (fun _ => True).
Proof. intros _ Hz. apply t_vgetz. exact Hz. Qed.
Lemma sparse_sh n p c : csc_wf n p c -> dm_sh (sparse_dm o) c n p.
Proof.
  intros HC. split; cbn [dm_n_features dm_update dm_extrap dm_update_mt dm_extrap_mt sparse_dm].
  - unfold csc_n_features. destruct HC as (-> & _). reflexivity.
  - intros Xw diff j HL Hj. unfold sparse_update. eapply t_bind; [apply (t_range n p); auto|]. intros r Hr.
    apply (t_foldM (fun l => length l = n)); auto. intros s z Hz Hs. specialize (Hr z Hz).
    eapply t_bind; [apply (t_index n p); auto|]. intros i Hi. cbv beta in Hi. eapply t_bind; [apply (t_data n p); auto|]. intros x _.
    eapply t_bind; [apply t_vgetz; rewrite Hs; auto|]. intros v _. apply t_vsetz; auto.
  - intros ws w Hw Hws. unfold sparse_extrap. apply (t_foldM (fun l => length l = n)); [apply vzeros_length|]. intros s j Hj Hs.
    eapply t_bind; [apply (t_range n p); auto|]. intros r Hr.
    apply (t_foldM (fun l => length l = n)); auto. intros s' z Hz Hs'. specialize (Hr z Hz).
    eapply t_bind; [apply (t_index n p); auto|]. intros i Hi. cbv beta in Hi. eapply t_bind; [apply (t_data n p); auto|]. intros x _.
    eapply t_bind; [apply t_vget; rewrite Hw; auto|]. intros wj _.
    eapply t_bind; [apply t_vgetz; rewrite Hs'; auto|]. intros v _. apply t_vsetz; auto.
  - intros T XW diff j HXW Hd Hj. unfold sparse_update_mt. eapply t_bind; [apply (t_range n p); auto|]. intros r Hr.
    apply (t_foldM (shaped n T)); auto. intros s z Hz Hs. specialize (Hr z Hz). assert (Hs' := Hs). destruct Hs' as (S1 & S2 & S3). rewrite S2.
    apply (t_foldM (shaped n T)); auto. intros s' t Ht Hs'. apply in_seq in Ht.
    eapply t_bind; [apply (t_index n p); auto|]. intros i Hi. cbv beta in Hi. eapply t_bind; [apply t_vget; lia|]. intros dd _.
    eapply t_bind; [apply (t_data n p); auto|]. intros x _. rewrite (proj2 (Z.ltb_ge _ _)) by lia.
    eapply t_bind; [apply (t_mget n T); auto; lia|]. intros v _. apply t_mset; auto; lia.
  - intros T ws W HW Hws. unfold sparse_extrap_mt. apply (t_foldM (shaped n T)); [apply mzeros_shaped|]. intros s j Hj Hs.
    eapply t_bind; [apply (t_range n p); auto|]. intros r Hr.
    apply (t_foldM (shaped n T)); auto. intros s1 z Hz Hs1. specialize (Hr z Hz).
    apply (t_foldM (shaped n T)); auto. intros s' t Ht Hs'. apply in_seq in Ht.
    eapply t_bind; [apply (t_index n p); auto|]. intros i Hi. cbv beta in Hi. eapply t_bind; [apply (t_data n p); auto|]. intros x _.
    specialize (Hws j Hj). eapply t_bind; [apply (t_mget p T); auto; lia|]. intros wj _. rewrite (proj2 (Z.ltb_ge _ _)) by lia.
    eapply t_bind; [apply (t_mget n T); auto; lia|]. intros v _. apply t_mset; auto; lia.
Qed.
End Sparse.

Section Datafits.
Context {F : Type} (o : FOps F).
Lemma target1_ns n (t : targets F) : target1_wf n t -> n_samples t = n.
Proof. destruct t; simpl; [auto|intros (H & _); auto]. Qed.
Lemma single_ok n (t : targets F) : target1_wf n t -> total (single_target (f0 o) t) (fun y => length y = n).
Proof.
  intros H. unfold single_target, try_single_target. destruct t as [y|Y]; cbn [as_multi_tasks mnc].
  - cbn [Nat.ltb Nat.leb]. simpl in H. unfold mcol. cbn [mnc Nat.ltb Nat.leb bind]. apply t_ret. unfold colv. cbn [mrows].
    rewrite !map_length. auto.
  - destruct H as (H1 & H2 & H3). rewrite H2. cbn [Nat.ltb Nat.leb]. rewrite bind_assoc. eapply t_bind; [apply (t_mcol (f0 o) n 1 Y 0); [split; auto|lia]|].
    intros c Hc. cbn [bind]. apply t_ret; auto.
Qed.
Lemma target_ns n T (t : targets F) : target_wf n T t -> n_samples t = n /\ n_tasks t = T /\ shaped n T (as_multi_tasks t).
Proof.
  destruct t; simpl.
  - intros (<- & ->). repeat split; auto; simpl; [rewrite map_length; auto|]. apply Forall_forall. intros x Hx. apply in_map_iff in Hx as (v & <- & _). auto.
  - intros (H1 & H2 & H3). split; auto. split; auto. split; auto.
Qed.
Lemma quad_value_sh {DM} d (ds : dataset DM F) n Xw : target1_wf n (dtargets ds) -> length Xw = n -> total (quad_value o d ds Xw) (fun _ => True).
Proof.
  intros Ht HX. unfold quad_value. eapply t_bind; [apply single_ok; eauto|]. intros y Hy. cbv beta in Hy.
  eapply t_bind; [apply (t_vbin _ _ _ n); auto|]. intros r Hr. eapply t_bind; [apply t_vdot; auto|]. intros; apply t_ret; auto.
Qed.
Lemma quad_dense_sh n p X t d : shaped n p X -> target1_wf n t ->
  total (df_initialize (quad_dense o) d (Dataset X t)) (fun d' => df_good (quad_dense o) d' (Dataset X t) n p).
Proof.
  intros HX Ht. cbn [df_initialize quad_dense]. unfold quad_dense_initialize. cbn [dtargets design_matrix].
  assert (HX' := HX). destruct HX' as (H1 & H2 & H3). destruct (cols_length (f0 o) _ _ _ HX) as [L1 L2].
  eapply t_bind; [apply single_ok; eauto|]. intros y Hy. cbv beta in Hy. unfold mtv. rewrite H1, Hy, Nat.eqb_refl. cbn [bind]. apply t_ret.
  split; [cbn [df_step_size quad_dense q_lipschitz]; rewrite map_length; auto|]. split; [intros Xw HXw; apply (quad_value_sh _ _ n); auto|].
  intros Xw j HXw Hj. cbn [df_gradient_j quad_dense]. unfold quad_dense_gradient_j. cbn [design_matrix q_Xty].
  eapply t_bind; [apply (t_mcol (f0 o) n p); auto|]. intros c Hc. cbv beta in Hc. eapply t_bind; [apply t_vdot; congruence|]. intros r _.
  eapply t_bind; [apply t_vget; rewrite map_length; lia|]. intros; apply t_ret; auto.
Qed.
Lemma quad_sparse_sh n p X t d : csc_wf n p X -> target1_wf n t ->
  total (df_initialize (quad_sparse o) d (Dataset X t)) (fun d' => df_good (quad_sparse o) d' (Dataset X t) n p).
Proof.
  intros HX Ht. cbn [df_initialize quad_sparse]. unfold quad_sparse_initialize. cbn [dtargets design_matrix].
  pose proof (sh_nf _ _ _ _ (sparse_sh o n p X HX)) as Hp. cbn [dm_n_features sparse_dm] in Hp. rewrite Hp. cbn [bind].
  eapply t_bind; [apply single_ok; eauto|]. intros y Hy. cbv beta in Hy.
  eapply t_bind; [apply (t_mapM _ (fun _ => True))|].
  - intros j Hj. apply in_seq in Hj. eapply t_bind; [apply (t_range n p); auto; lia|]. intros r Hr.
    eapply t_bind; [apply (t_foldM (fun _ => True)); auto|intros [a b] _; apply t_ret; auto].
    intros s z Hz _. specialize (Hr z Hz). eapply t_bind; [apply (t_data n p); auto|]. intros x _.
    eapply t_bind; [apply (t_index n p); auto|]. intros i Hi. cbv beta in Hi. eapply t_bind; [apply t_vgetz; rewrite Hy; auto|]. intros; apply t_ret; auto.
  - intros l [_ HL]. rewrite seq_length in HL. apply t_ret. split; [cbn; rewrite map_length; auto|]. split; [intros Xw HXw; apply (quad_value_sh _ _ n); auto|].
    intros Xw j HXw Hj. cbn [df_gradient_j quad_sparse]. unfold quad_sparse_gradient_j. cbn [design_matrix q_Xty].
    eapply t_bind; [apply (t_range n p); auto; lia|]. intros r Hr.
    eapply t_bind; [apply (t_foldM (fun _ => True)); auto|].
    + intros s z Hz _. specialize (Hr z Hz). eapply t_bind; [apply (t_data n p); auto|]. intros x _.
      eapply t_bind; [apply (t_index n p); auto|]. intros i Hi. cbv beta in Hi. eapply t_bind; [apply t_vgetz; rewrite HXw; auto|]. intros; apply t_ret; auto.
    + intros a _. eapply t_bind; [apply t_vget; rewrite map_length; lia|]. intros; apply t_ret; auto.
Qed.
Lemma log_value_sh {DM} d (ds : dataset DM F) n Xw : target1_wf n (dtargets ds) -> length Xw = n -> total (log_value o d ds Xw) (fun _ => True).
Proof. intros Ht HX. unfold log_value. eapply t_bind; [apply single_ok; eauto|]. intros y Hy. cbv beta in Hy. apply t_ret; auto. Qed.
Lemma log_dense_sh n p X t d : shaped n p X -> target1_wf n t ->
  total (df_initialize (log_dense o) d (Dataset X t)) (fun d' => df_good (log_dense o) d' (Dataset X t) n p).
Proof.
  intros HX Ht. cbn [df_initialize log_dense]. unfold log_dense_initialize. cbn [dtargets design_matrix].
  destruct (cols_length (f0 o) _ _ _ HX) as [L1 L2]. apply t_ret.
  split; [cbn [df_step_size log_dense l_lipschitz]; rewrite map_length; auto|]. split; [intros Xw HXw; apply (log_value_sh _ _ n); auto|].
  intros Xw j HXw Hj. cbn [df_gradient_j log_dense]. unfold log_dense_gradient_j. cbn [design_matrix dtargets].
  eapply t_bind; [apply single_ok; eauto|]. intros y Hy. cbv beta in Hy.
  eapply t_bind; [apply (t_mcol (f0 o) n p); auto|]. intros c Hc. cbv beta in Hc.
  eapply t_bind; [apply t_vdot; rewrite map2_length; lia|]. intros; apply t_ret; auto.
Qed.
Lemma log_sparse_sh n p X t d : csc_wf n p X -> target1_wf n t ->
  total (df_initialize (log_sparse o) d (Dataset X t)) (fun d' => df_good (log_sparse o) d' (Dataset X t) n p).
Proof.
  intros HX Ht. cbn [df_initialize log_sparse]. unfold log_sparse_initialize. cbn [dtargets design_matrix].
  pose proof (sh_nf _ _ _ _ (sparse_sh o n p X HX)) as Hp. cbn [dm_n_features sparse_dm] in Hp. rewrite Hp. cbn [bind].
  eapply t_bind; [apply (t_mapM _ (fun _ => True))|].
  - intros j Hj. apply in_seq in Hj. eapply t_bind; [apply (t_range n p); auto; lia|]. intros r Hr.
    eapply t_bind; [apply (t_foldM (fun _ => True)); auto|intros a _; apply t_ret; auto].
    intros s z Hz _. specialize (Hr z Hz). eapply t_bind; [apply (t_data n p); auto|]. intros; apply t_ret; auto.
  - intros l [_ HL]. rewrite seq_length in HL. apply t_ret. split; [cbn; auto|]. split; [intros Xw HXw; apply (log_value_sh _ _ n); auto|].
    intros Xw j HXw Hj. cbn [df_gradient_j log_sparse]. unfold log_sparse_gradient_j. cbn [design_matrix dtargets].
    eapply t_bind; [apply single_ok; eauto|]. intros y Hy. cbv beta in Hy.
    eapply t_bind; [apply (t_range n p); auto; lia|]. intros r Hr.
    apply (t_foldM (fun _ => True)); auto.
    intros s z Hz _. specialize (Hr z Hz). eapply t_bind; [apply (t_data n p); auto|]. intros x _.
    eapply t_bind; [apply (t_index n p); auto|]. intros i Hi. cbv beta in Hi. eapply t_bind; [apply t_vgetz; rewrite Hy; auto|]. intros yi _.
    eapply t_bind; [apply t_vgetz; rewrite HXw; auto|]. intros; apply t_ret; auto.
Qed.
Lemma qmt_value_sh {DM} d (ds : dataset DM F) n T XW : target_wf n T (dtargets ds) -> shaped n T XW -> total (qmt_value o d ds XW) (fun _ => True).
Proof.
  intros Ht HX. apply target_ns in Ht as (_ & _ & (A1 & A2 & A3)). destruct HX as (H1 & H2 & H3). unfold qmt_value, msub.
  rewrite A1, A2, H1, H2, !Nat.eqb_refl. apply t_ret; auto.
Qed.
Lemma qmt_dense_sh n p T X t d : shaped n p X -> target_wf n T t ->
  total (dfm_initialize (qmt_dense o) d (Dataset X t)) (fun d' => dfm_good (qmt_dense o) d' (Dataset X t) n p T).
Proof.
  intros HX Ht. cbn [dfm_initialize qmt_dense]. unfold qmt_dense_initialize. cbn [dtargets design_matrix].
  destruct (cols_length (f0 o) _ _ _ HX) as [L1 L2]. destruct (target_ns _ _ _ Ht) as (N1 & N2 & N3).
  eapply t_bind; [apply (t_mtm o n p T); auto|]. intros XtY HXtY. apply t_ret.
  split; [cbn [dfm_step_size qmt_dense qm_lipschitz]; rewrite map_length; auto|]. split; [intros XW HXW; apply (qmt_value_sh _ _ n T); auto|].
  intros XW j HXW Hj. cbn [dfm_gradient_j qmt_dense]. unfold qmt_dense_gradient_j. cbn [design_matrix dtargets qm_XtY].
  eapply t_bind; [apply (t_mcol (f0 o) n p); auto|]. intros c Hc. cbv beta in Hc. destruct (cols_length (f0 o) _ _ _ HXW) as [M1 _]. destruct HXW as (W1 & W2 & W3).
  unfold vtm. rewrite W1, Hc, Nat.eqb_refl. cbn [bind]. eapply t_bind; [apply (t_mrow p T); auto|]. intros b Hb.
  eapply t_bind; [apply (t_vbin _ _ _ T); auto; rewrite map_length; auto|]. intros r Hr. apply t_ret. rewrite map_length; auto.
Qed.
Lemma qmt_sparse_sh n p T X t d : csc_wf n p X -> target_wf n T t ->
  total (dfm_initialize (qmt_sparse o) d (Dataset X t)) (fun d' => dfm_good (qmt_sparse o) d' (Dataset X t) n p T).
Proof.
  intros HX Ht. cbn [dfm_initialize qmt_sparse]. unfold qmt_sparse_initialize. cbn [dtargets design_matrix].
  destruct (target_ns _ _ _ Ht) as (N1 & N2 & N3).
  pose proof (sh_nf _ _ _ _ (sparse_sh o n p X HX)) as Hp. cbn [dm_n_features sparse_dm] in Hp. rewrite Hp. cbn [bind]. rewrite N2.
  eapply t_bind; [apply (t_mapM _ (fun ab => length (snd ab) = T))|].
  - intros j Hj. apply in_seq in Hj. unfold qmt_sparse_init_feature. rewrite bind_assoc. eapply t_bind; [apply (t_range n p); auto; lia|]. intros r Hr.
    eapply t_bind; [apply (t_foldM (fun ab => length (snd ab) = T)); [apply vzeros_length|]|intros [a b] Hb; apply t_ret; exact Hb].
    intros s z Hz Hs. specialize (Hr z Hz). eapply t_bind; [apply (t_data n p); auto|]. intros x _.
    eapply t_bind; [apply (t_foldM (fun b => length b = T)); auto|intros b Hb; apply t_ret; exact Hb].
    intros s' u Hu Hs'. apply in_seq in Hu. eapply t_bind; [apply (t_index n p); auto|]. intros i Hi. cbv beta in Hi.
    rewrite (proj2 (Z.ltb_ge _ _)) by lia. eapply t_bind; [apply (t_mget n T); auto; lia|]. intros v _.
    eapply t_bind; [apply t_vget; lia|]. intros v' _. apply t_vset; auto. lia.
  - intros l [HF HL]. rewrite seq_length in HL. apply t_ret. split; [cbn; rewrite map_length; auto|]. split; [intros XW HXW; apply (qmt_value_sh _ _ n T); auto|].
    intros XW j HXW Hj. cbn [dfm_gradient_j qmt_sparse]. unfold qmt_sparse_gradient_j. cbn [design_matrix dtargets qm_XtY]. rewrite N2.
    eapply t_bind; [apply (t_range n p); auto; lia|]. intros r Hr.
    eapply t_bind; [apply (t_foldM (fun b => length b = T)); [apply vzeros_length|]|].
    + intros s z Hz Hs. specialize (Hr z Hz). apply (t_foldM (fun b => length b = T)); auto. intros s' u Hu Hs'. apply in_seq in Hu.
      eapply t_bind; [apply (t_data n p); auto|]. intros x _. eapply t_bind; [apply (t_index n p); auto|]. intros i Hi. cbv beta in Hi.
      rewrite (proj2 (Z.ltb_ge _ _)) by lia. eapply t_bind; [apply (t_mget n T); auto; lia|]. intros v _.
      eapply t_bind; [apply t_vget; lia|]. intros v' _. apply t_vset; auto. lia.
    + intros a Ha. eapply t_bind; [apply (t_mrow p T); auto|].
      * split; [reflexivity|]. split; [reflexivity|]. split; cbn [mrows mnr mnc]; [rewrite map_length; auto|]. clear - HF. induction HF; simpl; auto.
      * intros b Hb. eapply t_bind; [apply (t_vbin _ _ _ T); auto|]. intros g Hg. apply t_ret. rewrite map_length; auto.
Qed.
End Datafits.

(** *** penalties: scores of zero coefficients are never NaN *)
Definition pen_sh {F P} (o : FOps F) (pen : Penalty F P) (p_ : P) : Prop :=
  forall w grad ws, length grad = length ws -> (forall j, In j ws -> j < length w) ->
  exists d m, pen_subdiff_distance pen p_ w grad ws = Ret (d, m) /\
    length d = length ws /\
    forall k j x, nth_error ws k = Some j -> nth_error w j = Some x -> feq o x (f0 o) = true ->
      exists s, nth_error d k = Some s /\ fisnan o s = false.
Definition bpen_sh {F P} (o : FOps F) (T : nat) (pen : PenaltyMT F P) (p_ : P) : Prop :=
  (forall v s, length v = T -> length (bpen_prox pen p_ v s) = T) /\
  forall W grad ws r, shaped r T W -> shaped (length ws) T grad -> (forall j, In j ws -> j < r) ->
  exists d m, bpen_subdiff_distance pen p_ W grad ws = Ret (d, m) /\
    length d = length ws /\
    forall k j x, nth_error ws k = Some j -> nth_error (mrows W) j = Some x -> any_nonzero o x = false ->
      exists s, nth_error d k = Some s /\ fisnan o s = false.
