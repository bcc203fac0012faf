(** Datasets with inconsistent sample counts. *)
From Coq Require Import List ZArith Bool Arith Lia.
From Verif Require Import Ops Arr MUtils MDatasets MDatafits MDatafitsMT MPenalties MBlockPenalties MCd MBcd MHyper MEstimators SpecSolve SpecShape PShape.
Import ListNotations.
Local Open Scope nat_scope.

(** *** only index panics *)
Definition oob {A} (r : res A) : Prop := match r with Panic k => k = POob | Ret _ => True end.
Lemma oob_bind {A B} (r : res A) (k : A -> res B) : oob r -> (forall a, oob (k a)) -> oob (bind r k).
Proof. destruct r; cbn; auto. Qed.
Lemma oob_ret {A} (a : A) : oob (Ret a). Proof. exact I. Qed.
Lemma oob_vget {A} (l : list A) i : oob (vget l i). Proof. unfold vget. destruct (nth_error l i); cbn; auto. Qed.
Lemma oob_vgetz {A} (l : list A) i : oob (vgetz l i). Proof. unfold vgetz. destruct (i <? 0)%Z; [reflexivity|apply oob_vget]. Qed.
Lemma oob_vset {A} (l : list A) i a : oob (vset l i a). Proof. unfold vset. destruct (i <? length l); cbn; auto. Qed.
Lemma oob_mget {A} (m : mat A) i j : oob (mget m i j).
Proof. unfold mget. apply oob_bind; [apply oob_vget|]. intros. apply oob_vget. Qed.
Lemma oob_foldM {S A} (f : S -> A -> res S) l s : (forall s a, oob (f s a)) -> oob (foldM f l s).
Proof. intros H. revert s. induction l as [|a l IH]; intros s; cbn; auto. apply oob_bind; auto. Qed.
Lemma oob_mapM {A B} (f : A -> res B) l : (forall a, oob (f a)) -> oob (mapM f l).
Proof. intros H. induction l; cbn; auto. apply oob_bind; auto. intros. apply oob_bind; auto. intros; exact I. Qed.
Lemma oob_range {F} (c : csc F) j : oob (csc_range c j).
Proof. unfold csc_range. apply oob_bind; [apply oob_vget|]. intros. apply oob_bind; [apply oob_vget|]. intros; exact I. Qed.
Lemma foldM_hit {S A} (f : S -> A -> res S) l s x : (forall s a, oob (f s a)) -> In x l -> (forall s, f s x = Panic POob) -> foldM f l s = Panic POob.
Proof.
  intros H. revert s. induction l as [|a l IH]; intros s Hi Hx; [contradiction|]. cbn. destruct Hi as [->|Hi].
  - rewrite Hx. reflexivity.
  - specialize (H s a). destruct (f s a) as [s'|k]; cbn in *; [apply IH; auto|subst; reflexivity].
Qed.
Lemma mapM_hit {A B} (f : A -> res B) l x : (forall a, oob (f a)) -> In x l -> f x = Panic POob -> mapM f l = Panic POob.
Proof.
  intros H. induction l as [|a l IH]; intros Hi Hx; [contradiction|]. cbn. destruct Hi as [->|Hi].
  - rewrite Hx. reflexivity.
  - specialize (H a). destruct (f a) as [b|k]; cbn in *; [rewrite IH; auto|subst; reflexivity].
Qed.
Ltac oob := repeat first [apply oob_ret|apply oob_vgetz|apply oob_vget|apply oob_vset|apply oob_mget|apply oob_range|apply oob_bind; [|intros ?]
  |apply oob_foldM; intros ? ?|apply oob_mapM; intros ?|match goal with |- oob (if ?b then _ else _) => destruct b; [reflexivity|] end].

Lemma map2_len {A B C} (g : A -> B -> C) : forall a b, length (map2 g a b) = Nat.min (length a) (length b).
Proof. intros a b. unfold map2. rewrite map_length, combine_length. reflexivity. Qed.
Section Mismatch.
Context {F : Type} (o : FOps F) (srt : list F -> list nat).

(** *** dense designs *)
Lemma single_len n (t : targets F) : target1_wf n t -> exists y, single_target (f0 o) t = Ret y /\ length y = n.
Proof. intros H. destruct (single_ok o n t H) as (y & E & L). eauto. Qed.
Lemma quad_dense_mismatch X t n d : target1_wf n t -> mnr X <> n -> quad_dense_initialize o d (Dataset X t) = Panic PShape.
Proof.
  intros Ht HX. unfold quad_dense_initialize. cbn [dtargets design_matrix]. destruct (single_len n t Ht) as (y & -> & L). cbn [bind].
  unfold mtv. rewrite L. rewrite (proj2 (Nat.eqb_neq _ _) HX). reflexivity.
Qed.
Lemma n_samples1 n (t : targets F) : target1_wf n t -> n_samples t = n.
Proof. destruct t; cbn; intuition. Qed.
Lemma as_multi_n n T (t : targets F) : target_wf n T t -> mnr (as_multi_tasks t) = n.
Proof. destruct t; cbn; intuition. Qed.
Lemma qmt_dense_mismatch X t n T d : target_wf n T t -> mnr X <> n -> qmt_dense_initialize o d (Dataset X t) = Panic PShape.
Proof.
  intros Ht HX. unfold qmt_dense_initialize. cbn [dtargets design_matrix]. unfold mtm. rewrite (as_multi_n n T t Ht).
  rewrite (proj2 (Nat.eqb_neq _ _) HX). reflexivity.
Qed.

Lemma mismatch_dense n X t pr : target1_wf n t -> mnr X <> n ->
  refused PShape (lasso_check_ref o) pr (fit_unchecked (lasso_check_ref o) (lasso_fit_dense o srt) pr (Dataset X t)) /\
  refused PShape (elastic_net_check_ref o) pr (fit_unchecked (elastic_net_check_ref o) (elastic_net_fit_dense o srt) pr (Dataset X t)) /\
  refused PShape (mcp_check_ref o) pr (fit_unchecked (mcp_check_ref o) (mcp_fit_dense o srt) pr (Dataset X t)).
Proof.
  intros Ht HX. unfold refused, fit_unchecked. repeat split.
  all: match goal with |- context [match ?c with _ => _ end] => destruct c; [|reflexivity] end.
  all: unfold lasso_fit_dense, elastic_net_fit_dense, mcp_fit_dense, coordinate_descent; cbn [dm_n_features dense_dm bind df_initialize quad_dense].
  all: rewrite (quad_dense_mismatch X t n _ Ht HX); reflexivity.
Qed.
Lemma mismatch_mt_dense n T X t pr : target_wf n T t -> mnr X <> n ->
  refused PShape (mt_lasso_check_ref o) pr (fit_unchecked (mt_lasso_check_ref o) (mt_lasso_fit_dense o srt) pr (Dataset X t)) /\
  refused PShape (mt_elastic_net_check_ref o) pr (fit_unchecked (mt_elastic_net_check_ref o) (mt_elastic_net_fit_dense o srt) pr (Dataset X t)) /\
  refused PShape (block_mcp_check_ref o) pr (fit_unchecked (block_mcp_check_ref o) (block_mcp_fit_dense o srt) pr (Dataset X t)).
Proof.
  intros Ht HX. unfold refused, fit_unchecked. repeat split.
  all: match goal with |- context [match ?c with _ => _ end] => destruct c; [|reflexivity] end.
  all: unfold mt_lasso_fit_dense, mt_elastic_net_fit_dense, block_mcp_fit_dense, block_coordinate_descent; cbn [dm_n_features dense_dm bind dfm_initialize qmt_dense].
  all: rewrite (qmt_dense_mismatch X t n T _ Ht HX); reflexivity.
Qed.

(** a datafit whose initialisation or first gradient panics makes the solver panic *)
Lemma solve_init_panic {DM D P} (dm : DesignMatrix F DM) (df : Datafit F DM D) (pen : Penalty F P) s ds d q p k :
  dm_n_features dm (design_matrix ds) = Ret p -> df_initialize df d ds = Panic k -> solve o srt dm df pen s ds d q = Panic k.
Proof. intros E1 E2. unfold solve, coordinate_descent. rewrite E1. cbn [bind]. rewrite E2. reflexivity. Qed.
Lemma solve_mt_init_panic {DM D P} (dm : DesignMatrix F DM) (df : DatafitMT F DM D) (pen : PenaltyMT F P) s ds d q p k :
  dm_n_features dm (design_matrix ds) = Ret p -> dfm_initialize df d ds = Panic k -> solve_multi_task o srt dm df pen s ds d q = Panic k.
Proof. intros E1 E2. unfold solve_multi_task, block_coordinate_descent. rewrite E1. cbn [bind]. rewrite E2. reflexivity. Qed.
Lemma solve_grad_panic {DM D P} (dm : DesignMatrix F DM) (df : Datafit F DM D) (pen : Penalty F P) s ds d q p d' k :
  dm_n_features dm (design_matrix ds) = Ret p -> df_initialize df d ds = Ret d' -> 1 <= s_max_iterations s ->
  mapM (fun j => df_gradient_j df d' ds (vzeros o (n_samples (dtargets ds))) j) (seq 0 p) = Panic k -> solve o srt dm df pen s ds d q = Panic k.
Proof.
  intros E1 E2 Hm E3. unfold solve, coordinate_descent. rewrite E1. cbn [bind]. rewrite E2. cbn [bind].
  destruct (s_max_iterations s) as [|m]; [lia|]. cbn [outer_loop]. unfold opt_cond_violation, construct_grad. rewrite E3. reflexivity.
Qed.
Lemma log_dense_mismatch n X t d p Xw : target1_wf n t -> mwf X -> mnc X = p -> 1 <= p -> length Xw = n -> mnr X <> n ->
  mapM (fun j => log_dense_gradient_j o d (Dataset X t) Xw j) (seq 0 p) = Panic PShape.
Proof.
  intros Ht HW Hp H1 HL HX. destruct p as [|p]; [lia|]. cbn [seq mapM]. unfold log_dense_gradient_j at 1. cbn [dtargets design_matrix].
  destruct (single_len n t Ht) as (y & -> & L). cbn [bind]. unfold mcol. rewrite Hp. cbn [Nat.ltb Nat.leb bind].
  unfold vdot. rewrite map2_len. unfold colv. rewrite map_length. destruct HW as [HW _]. rewrite HW, L, HL, Nat.min_id.
  rewrite (proj2 (Nat.eqb_neq _ _) HX). reflexivity.
Qed.
Lemma mismatch_logistic n p X t s : target1_wf n t -> mwf X -> mnc X = p -> 1 <= p -> 1 <= s_max_iterations s -> mnr X <> n ->
  (forall d q, solve o srt (dense_dm o) (log_dense o) (l1_penalty o) s (Dataset X t) d q = Panic PShape) /\
  (forall d q, solve o srt (dense_dm o) (log_dense o) (l1l2_penalty o) s (Dataset X t) d q = Panic PShape) /\
  (forall d q, solve o srt (dense_dm o) (log_dense o) (mcp_penalty o) s (Dataset X t) d q = Panic PShape).
Proof.
  intros Ht HW Hp H1 Hm HX. repeat split; intros d q.
  all: eapply solve_grad_panic; [cbn; rewrite Hp; reflexivity|reflexivity|auto|].
  all: cbn [df_gradient_j log_dense dtargets]; apply (log_dense_mismatch n); auto; unfold vzeros; rewrite repeat_length; apply n_samples1; auto.
Qed.

(** *** sparse designs *)
Lemma in_zrange lo hi q : (lo <= q < hi)%Z -> In q (zrange lo hi).
Proof. intros H. unfold zrange. apply in_map_iff. exists (Z.to_nat (q - lo)). split; [lia|]. apply in_seq. lia. Qed.
Lemma features_oob (c : csc F) j lo hi : nth_error (cindptr c) j = Some lo -> nth_error (cindptr c) (S j) = Some hi ->
  exists p, csc_n_features c = Ret p /\ j < p.
Proof.
  intros _ H. assert (Hl : S j < length (cindptr c)) by (apply nth_error_Some; rewrite H; discriminate).
  unfold csc_n_features. destruct (length (cindptr c)) as [|p]; [lia|]. exists p. split; auto. lia.
Qed.
Lemma range_at (c : csc F) j lo hi : nth_error (cindptr c) j = Some lo -> nth_error (cindptr c) (S j) = Some hi -> csc_range c j = Ret (zrange lo hi).
Proof. intros E1 E2. unfold csc_range, vget. rewrite E1, E2. reflexivity. Qed.
(** reading the sample of an entry outside *)
Lemma read_outside {A} (c : csc F) (n : nat) (y : list A) q {B} (k : Z -> A -> res B) :
  (forall i, (0 <= q)%Z -> nth_error (cindices c) (Z.to_nat q) = Some i -> (i < 0 \/ Z.of_nat n <= i)%Z) -> length y = n ->
  (i <- vgetz (cindices c) q ;; yi <- vgetz y i ;; k i yi) = Panic POob.
Proof.
  intros H L. unfold vgetz at 1. destruct (q <? 0)%Z eqn:Eq; [reflexivity|]. apply Z.ltb_ge in Eq. unfold vget at 1.
  destruct (nth_error (cindices c) (Z.to_nat q)) as [i|] eqn:Ei; [|reflexivity]. cbn [bind]. specialize (H i Eq eq_refl).
  unfold vgetz. destruct (i <? 0)%Z eqn:Ez; [reflexivity|]. apply Z.ltb_ge in Ez. unfold vget. rewrite (proj2 (nth_error_None y (Z.to_nat i))) by lia. reflexivity.
Qed.
Lemma quad_sparse_mismatch n c t d : target1_wf n t -> entry_outside n c -> quad_sparse_initialize o d (Dataset c t) = Panic POob.
Proof.
  intros Ht (j & lo & hi & q & E1 & E2 & Hq & Hout). unfold quad_sparse_initialize. cbn [dtargets design_matrix].
  destruct (features_oob c j lo hi E1 E2) as (p & -> & Hj). cbn [bind]. destruct (single_len n t Ht) as (y & -> & L). cbn [bind].
  match goal with |- bind (mapM ?f ?l) _ = _ => rewrite (mapM_hit f l j) end; [reflexivity| |apply in_seq; lia|].
  - intros a. oob. destruct a1. oob.
  - rewrite (range_at c j lo hi E1 E2). cbn [bind].
    match goal with |- bind (foldM ?f ?l ?s) _ = _ => rewrite (foldM_hit f l s q) end; [reflexivity| |apply in_zrange; auto|].
    + intros. oob.
    + intros s. pose proof (oob_vgetz (cdata c) q) as Hx. destruct (vgetz (cdata c) q); cbn [bind oob] in *; [|subst; reflexivity].
      apply (read_outside c n y q (fun _ yi => Ret (fadd o (fst s) (fmul o a a), fadd o (snd s) (fmul o a yi)))); auto.
Qed.
Lemma log_sparse_mismatch n c t d p : target1_wf n t -> entry_outside n c -> csc_n_features c = Ret p ->
  mapM (fun j => log_sparse_gradient_j o d (Dataset c t) (vzeros o (n_samples t)) j) (seq 0 p) = Panic POob.
Proof.
  intros Ht (j & lo & hi & q & E1 & E2 & Hq & Hout) Ep. destruct (features_oob c j lo hi E1 E2) as (p' & Ep' & Hj).
  assert (p' = p) by congruence. subst p'. destruct (single_len n t Ht) as (y & Ey & L).
  apply (mapM_hit _ _ j); [|apply in_seq; lia|]; unfold log_sparse_gradient_j; cbn [dtargets design_matrix].
  - intros a. rewrite Ey. cbn [bind]. oob.
  - rewrite Ey. cbn [bind]. rewrite (range_at c j lo hi E1 E2). cbn [bind].
    apply (foldM_hit _ _ _ q); [| apply in_zrange; auto|].
    + intros. oob.
    + intros s. pose proof (oob_vgetz (cdata c) q) as Hx. destruct (vgetz (cdata c) q); cbn [bind oob] in *; [|subst; reflexivity].
      eapply (read_outside c n y q (fun i yi => v <- vgetz (vzeros o (n_samples t)) i;; Ret (fsub o s (fdiv o (fmul o (fmul o a yi) (sigmoid o (fmul o (fneg o yi) v))) (fcast o (n_samples t)))))); auto.
Qed.
Lemma qmt_sparse_mismatch n T c t d : target_wf n T t -> 1 <= T -> entry_outside n c -> qmt_sparse_initialize o d (Dataset c t) = Panic POob.
Proof.
  intros Ht HT (j & lo & hi & q & E1 & E2 & Hq & Hout). unfold qmt_sparse_initialize. cbn [dtargets design_matrix].
  assert (HY : length (mrows (as_multi_tasks t)) = n /\ n_tasks t = T).
  { destruct t as [y|Y]; cbn in *; [rewrite map_length; intuition|]. destruct Ht as (<- & <- & [H _]). auto. }
  destruct HY as [HY ET].
  destruct (features_oob c j lo hi E1 E2) as (p & -> & Hj). cbn [bind].
  match goal with |- bind (mapM ?f ?l) _ = _ => rewrite (mapM_hit f l j) end; [reflexivity| |apply in_seq; lia|].
  - intros a. unfold qmt_sparse_init_feature. oob. destruct a0. oob.
  - unfold qmt_sparse_init_feature. rewrite (range_at c j lo hi E1 E2). cbn [bind].
    match goal with |- bind (foldM ?f ?l ?s) _ = _ => rewrite (foldM_hit f l s q) end; [reflexivity| |apply in_zrange; auto|].
    + intros. oob.
    + intros s. pose proof (oob_vgetz (cdata c) q) as Hx. destruct (vgetz (cdata c) q) as [x|]; cbn [bind oob] in *; [|subst; reflexivity].
      match goal with |- bind (foldM ?f ?l ?s) _ = _ => rewrite (foldM_hit f l s 0) end; [reflexivity| |apply in_seq; lia|].
      * intros. oob.
      * intros s'. unfold vgetz. destruct (q <? 0)%Z eqn:Eq; [reflexivity|]. apply Z.ltb_ge in Eq. unfold vget at 1.
        destruct (nth_error (cindices c) (Z.to_nat q)) as [i|] eqn:Ei; [|reflexivity]. cbn [bind]. specialize (Hout i Eq eq_refl).
        destruct (i <? 0)%Z eqn:Ez; [reflexivity|]. apply Z.ltb_ge in Ez. unfold mget, vget at 1.
        rewrite (proj2 (nth_error_None _ (Z.to_nat i))) by (rewrite HY; lia). reflexivity.
Qed.
Lemma outside_features n (c : csc F) : entry_outside n c -> exists p, csc_n_features c = Ret p.
Proof. intros (j & lo & hi & q & E1 & E2 & _). destruct (features_oob c j lo hi E1 E2) as (p & E & _). eauto. Qed.
Lemma mismatch_sparse n c t pr : target1_wf n t -> entry_outside n c ->
  refused POob (lasso_check_ref o) pr (fit_unchecked (lasso_check_ref o) (lasso_fit_sparse o srt) pr (Dataset c t)) /\
  refused POob (elastic_net_check_ref o) pr (fit_unchecked (elastic_net_check_ref o) (elastic_net_fit_sparse o srt) pr (Dataset c t)) /\
  refused POob (mcp_check_ref o) pr (fit_unchecked (mcp_check_ref o) (mcp_fit_sparse o srt) pr (Dataset c t)).
Proof.
  intros Ht HX. destruct (outside_features n c HX) as (p & Ep). unfold refused, fit_unchecked. repeat split.
  all: match goal with |- context [match ?c with _ => _ end] => destruct c; [|reflexivity] end.
  all: unfold lasso_fit_sparse, elastic_net_fit_sparse, mcp_fit_sparse, coordinate_descent; cbn [dm_n_features sparse_dm df_initialize quad_sparse design_matrix]; rewrite Ep; cbn [bind].
  all: rewrite (quad_sparse_mismatch n c t _ Ht HX); reflexivity.
Qed.
Lemma mismatch_mt_sparse n T c t pr : target_wf n T t -> 1 <= T -> entry_outside n c ->
  refused POob (mt_lasso_check_ref o) pr (fit_unchecked (mt_lasso_check_ref o) (mt_lasso_fit_sparse o srt) pr (Dataset c t)) /\
  refused POob (mt_elastic_net_check_ref o) pr (fit_unchecked (mt_elastic_net_check_ref o) (mt_elastic_net_fit_sparse o srt) pr (Dataset c t)) /\
  refused POob (block_mcp_check_ref o) pr (fit_unchecked (block_mcp_check_ref o) (block_mcp_fit_sparse o srt) pr (Dataset c t)).
Proof.
  intros Ht HT HX. destruct (outside_features n c HX) as (p & Ep). unfold refused, fit_unchecked. repeat split.
  all: match goal with |- context [match ?c with _ => _ end] => destruct c; [|reflexivity] end.
  all: unfold mt_lasso_fit_sparse, mt_elastic_net_fit_sparse, block_mcp_fit_sparse, block_coordinate_descent; cbn [dm_n_features sparse_dm dfm_initialize qmt_sparse design_matrix]; rewrite Ep; cbn [bind].
  all: rewrite (qmt_sparse_mismatch n T c t _ Ht HT HX); reflexivity.
Qed.
Lemma log_sparse_init c t d : oob (log_sparse_initialize o d (Dataset c t)) \/ csc_n_features c = Panic PUnderflow.
Proof.
  unfold log_sparse_initialize. cbn [design_matrix]. destruct (csc_n_features c) eqn:E.
  - left. cbn [bind]. oob.
  - right. unfold csc_n_features in E. destruct (length (cindptr c)); congruence.
Qed.
Lemma mismatch_logistic_sparse n c t s : target1_wf n t -> 1 <= s_max_iterations s -> entry_outside n c ->
  (forall d q, solve o srt (sparse_dm o) (log_sparse o) (l1_penalty o) s (Dataset c t) d q = Panic POob) /\
  (forall d q, solve o srt (sparse_dm o) (log_sparse o) (l1l2_penalty o) s (Dataset c t) d q = Panic POob) /\
  (forall d q, solve o srt (sparse_dm o) (log_sparse o) (mcp_penalty o) s (Dataset c t) d q = Panic POob).
Proof.
  intros Ht Hm HX. destruct (outside_features n c HX) as (p & Ep). repeat split; intros d q.
  all: destruct (log_sparse_init c t d) as [Ho|Hu]; [|congruence].
  all: destruct (log_sparse_initialize o d (Dataset c t)) as [d'|k] eqn:Ed; cbn [oob] in Ho.
  all: try (subst k; eapply solve_init_panic; [exact Ep|exact Ed]).
  all: eapply solve_grad_panic; [exact Ep|exact Ed|auto|]; cbn [df_gradient_j log_sparse dtargets]; apply (log_sparse_mismatch n); auto.
Qed.
(** *** alpha_max *)
Lemma mismatch_alpha_max X c y Y : (mnr X <> length y -> compute_alpha_max o X y = Panic PShape) /\
  (mnr X <> mnr Y -> compute_alpha_max_mtl o X Y = Panic PShape) /\ (entry_outside (length y) c -> compute_alpha_max_sparse o c y = Panic POob).
Proof.
  repeat split.
  - intros H. unfold compute_alpha_max, mtv. rewrite (proj2 (Nat.eqb_neq _ _) H). reflexivity.
  - intros H. unfold compute_alpha_max_mtl, mtm. rewrite (proj2 (Nat.eqb_neq _ _) H). reflexivity.
  - intros (j & lo & hi & q & E1 & E2 & Hq & Hout). unfold compute_alpha_max_sparse. destruct (features_oob c j lo hi E1 E2) as (p & -> & Hj). cbn [bind].
    match goal with |- bind (mapM ?f ?l) _ = _ => rewrite (mapM_hit f l j) end; [reflexivity| |apply in_seq; lia|].
    + intros a. oob.
    + rewrite (range_at c j lo hi E1 E2). cbn [bind]. apply (foldM_hit _ _ _ q); [intros; oob|apply in_zrange; auto|].
      intros s. pose proof (oob_vgetz (cdata c) q) as Hx. destruct (vgetz (cdata c) q) as [x|]; cbn [bind oob] in *; [|subst; reflexivity].
      apply (read_outside c (length y) y q); auto.
Qed.
(** *** no column pointers *)
Lemma no_indptr c t pr y : cindptr c = [] ->
  refused PUnderflow (lasso_check_ref o) pr (fit_unchecked (lasso_check_ref o) (lasso_fit_sparse o srt) pr (Dataset c t)) /\
  refused PUnderflow (elastic_net_check_ref o) pr (fit_unchecked (elastic_net_check_ref o) (elastic_net_fit_sparse o srt) pr (Dataset c t)) /\
  refused PUnderflow (mcp_check_ref o) pr (fit_unchecked (mcp_check_ref o) (mcp_fit_sparse o srt) pr (Dataset c t)) /\
  refused PUnderflow (mt_lasso_check_ref o) pr (fit_unchecked (mt_lasso_check_ref o) (mt_lasso_fit_sparse o srt) pr (Dataset c t)) /\
  refused PUnderflow (mt_elastic_net_check_ref o) pr (fit_unchecked (mt_elastic_net_check_ref o) (mt_elastic_net_fit_sparse o srt) pr (Dataset c t)) /\
  refused PUnderflow (block_mcp_check_ref o) pr (fit_unchecked (block_mcp_check_ref o) (block_mcp_fit_sparse o srt) pr (Dataset c t)) /\
  compute_alpha_max_sparse o c y = Panic PUnderflow.
Proof.
  intros H. assert (E : csc_n_features c = Panic PUnderflow) by (unfold csc_n_features; rewrite H; reflexivity).
  assert (S : forall D P (df : Datafit F (csc F) D) (pen : Penalty F P) d q s mi me tol K a v,
    coordinate_descent o (sparse_dm o) df pen srt (Dataset c t) d q s mi me tol K a v = Panic PUnderflow).
  { intros. unfold coordinate_descent. cbn [dm_n_features sparse_dm design_matrix]. rewrite E. reflexivity. }
  assert (M : forall D P (df : DatafitMT F (csc F) D) (pen : PenaltyMT F P) d q s mi me tol K a v,
    block_coordinate_descent o (sparse_dm o) df pen srt (Dataset c t) d q s mi me tol K a v = Panic PUnderflow).
  { intros. unfold block_coordinate_descent. cbn [dm_n_features sparse_dm design_matrix]. rewrite E. reflexivity. }
  assert (R : forall A chk (fit : params F -> dataset (csc F) F -> res A), (forall q, fit q (Dataset c t) = Panic PUnderflow) ->
    refused PUnderflow chk pr (fit_unchecked chk fit pr (Dataset c t))).
  { intros A chk fit Hf. unfold refused, fit_unchecked. destruct (chk pr); [rewrite Hf|]; reflexivity. }
  do 3 (split; [apply R; intros; apply S|]). do 3 (split; [apply R; intros; apply M|]).
  unfold compute_alpha_max_sparse. rewrite E. reflexivity.
Qed.
End Mismatch.
