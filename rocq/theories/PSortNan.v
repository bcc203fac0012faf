(** The comparison of scores is never asked to compare a NaN. *)
From Coq Require Import List ZArith Bool Arith Lia.
From Verif Require Import Ops Arr MUtils MDatasets MDatafits MDatafitsMT MPenalties MBlockPenalties
  MCd MBcd MHyper MEstimators.
Import ListNotations.

Definition clean {A} (m : res A) : Prop := m <> Panic PNaNCmp.

Lemma clean_ret : forall A (a : A), clean (Ret a).
Proof. discriminate. Qed.
Lemma clean_oob : forall A, clean (@Panic A POob).
Proof. discriminate. Qed.
Lemma clean_shape : forall A, clean (@Panic A PShape).
Proof. discriminate. Qed.
Lemma clean_unwrap : forall A, clean (@Panic A PUnwrap).
Proof. discriminate. Qed.
Lemma clean_under : forall A, clean (@Panic A PUnderflow).
Proof. discriminate. Qed.

Lemma clean_bind : forall A B (m : res A) (k : A -> res B),
  clean m -> (forall a, m = Ret a -> clean (k a)) -> clean (bind m k).
Proof.
  intros A B m k Hm Hk. destruct m as [a|e]; cbn.
  - apply Hk. reflexivity.
  - intro E. apply Hm. injection E as ->. reflexivity.
Qed.

Lemma clean_foldM : forall S A (f : S -> A -> res S) l s,
  (forall s a, clean (f s a)) -> clean (foldM f l s).
Proof.
  intros S A f l. induction l as [|a l IH]; intros s H; cbn [foldM].
  - apply clean_ret.
  - apply clean_bind; auto.
Qed.

Lemma clean_mapM : forall A B (f : A -> res B) l, (forall a, clean (f a)) -> clean (mapM f l).
Proof.
  intros A B f l H. induction l as [|a l IH]; cbn [mapM].
  - apply clean_ret.
  - apply clean_bind; auto. intros b _. apply clean_bind; auto. intros; apply clean_ret.
Qed.

#[global] Hint Resolve clean_ret clean_oob clean_shape clean_unwrap clean_under : clean.

Ltac cl := repeat first
  [ progress intros
  | solve [auto with clean]
  | apply clean_bind
  | apply clean_foldM
  | apply clean_mapM
  | match goal with
    | |- clean (if ?b then _ else _) => destruct b
    | |- clean (match ?x with _ => _ end) => destruct x
    end ].

Section Arrays.
Context {A : Type}.
Lemma cl_vget : forall (l : list A) i, clean (vget l i).
Proof. intros. unfold vget. cl. Qed.
Lemma cl_vset : forall (l : list A) i a, clean (vset l i a).
Proof. intros. unfold vset. cl. Qed.
Lemma cl_vgetz : forall (l : list A) i, clean (vgetz l i).
Proof. intros. unfold vgetz. cl. apply cl_vget. Qed.
Lemma cl_vsetz : forall (l : list A) i a, clean (vsetz l i a).
Proof. intros. unfold vsetz. cl. apply cl_vset. Qed.
End Arrays.
#[global] Hint Resolve cl_vget cl_vset cl_vgetz cl_vsetz : clean.

Section Mats.
Context {A : Type}.
Lemma cl_reshape : forall r c (l : list A), clean (reshape r c l).
Proof. intros. unfold reshape. cl. Qed.
Lemma cl_mget : forall (m : mat A) i j, clean (mget m i j).
Proof. intros. unfold mget. cl. Qed.
Lemma cl_mset : forall (m : mat A) i j v, clean (mset m i j v).
Proof. intros. unfold mset. cl. Qed.
Lemma cl_mrow : forall (m : mat A) i, clean (mrow m i).
Proof. intros. apply cl_vget. Qed.
Lemma cl_mcol : forall d (m : mat A) i, clean (mcol d m i).
Proof. intros. unfold mcol. cl. Qed.
Lemma cl_mset_row : forall (m : mat A) i v, clean (mset_row m i v).
Proof. intros. unfold mset_row. cl. Qed.
Lemma cl_single_target : forall (d : A) t, clean (single_target d t).
Proof. intros. unfold single_target, try_single_target. cl. apply cl_mcol. Qed.
Lemma cl_n_features : forall (X : csc A), clean (csc_n_features X).
Proof. intros. unfold csc_n_features. cl. Qed.
Lemma cl_range : forall (X : csc A) j, clean (csc_range X j).
Proof. intros. unfold csc_range. cl. Qed.
End Mats.

#[global] Hint Resolve cl_reshape cl_mget cl_mset cl_mrow cl_mcol
  cl_mset_row cl_single_target cl_n_features cl_range : clean.

Section Num.
Context {F : Type} (o : FOps F).
Lemma cl_vdot : forall a b, clean (vdot o a b).
Proof. intros. unfold vdot. cl. Qed.
Lemma cl_vbin : forall f (a b : list F), clean (vbin f a b).
Proof. intros. unfold vbin. cl. Qed.
Lemma cl_vaxpy : forall k (a b : list F), clean (vaxpy o k a b).
Proof. intros. unfold vaxpy. cl. Qed.
Lemma cl_vsub : forall a b, clean (vsub o a b).
Proof. intros. apply cl_vbin. Qed.
Lemma cl_vadd : forall a b, clean (vadd o a b).
Proof. intros. apply cl_vbin. Qed.
Lemma cl_mtv : forall X y, clean (mtv o X y).
Proof. intros. unfold mtv. cl. Qed.
Lemma cl_mtm : forall X y, clean (mtm o X y).
Proof. intros. unfold mtm. cl. Qed.
Lemma cl_vtm : forall X y, clean (vtm o X y).
Proof. intros. unfold vtm. cl. Qed.
Lemma cl_msub : forall X y, clean (msub o X y).
Proof. intros. unfold msub. cl. Qed.
Lemma cl_row_sub : forall d s f ks sys, clean (row_sub o d s f ks sys).
Proof. intros. unfold row_sub. cl. Qed.
Lemma cl_extract : forall size is sys x, clean (sls_extract o size is sys x).
Proof.
  intros size is. induction is as [|i is IH]; intros; cbn [sls_extract]; cl.
Qed.
Hint Resolve cl_row_sub cl_extract : clean.
Lemma cl_solve : forall A b, clean (solve_lin_sys o A b).
Proof. intros. unfold solve_lin_sys, sls_fill, sls_forward, sls_backward. cl. Qed.
End Num.

#[global] Hint Resolve cl_vdot cl_vbin cl_vaxpy cl_vsub cl_vadd cl_mtv cl_mtm cl_vtm cl_msub cl_solve : clean.

Section Parts.
Context {F : Type} (o : FOps F).

Lemma cl_point : forall m w K, clean (anderson_point o m w K).
Proof. intros. unfold anderson_point. cl. Qed.

Record clean_dm {DM} (dm : DesignMatrix F DM) : Prop := {
  c_nf : forall X, clean (dm_n_features dm X);
  c_ex : forall X ws w n, clean (dm_extrap dm X ws w n);
  c_exm : forall X ws w n t, clean (dm_extrap_mt dm X ws w n t);
  c_up : forall X a b j, clean (dm_update dm X a b j);
  c_upm : forall X a b j, clean (dm_update_mt dm X a b j) }.

Lemma clean_dense_dm : clean_dm (dense_dm o).
Proof.
  constructor; intros; cbn [dm_n_features dm_extrap dm_extrap_mt dm_update dm_update_mt dense_dm];
    unfold dense_extrap, dense_extrap_mt, dense_update, dense_update_mt; cl.
Qed.
Lemma clean_sparse_dm : clean_dm (sparse_dm o).
Proof.
  constructor; intros; cbn [dm_n_features dm_extrap dm_extrap_mt dm_update dm_update_mt sparse_dm];
    unfold sparse_extrap, sparse_extrap_mt, sparse_update, sparse_update_mt; cl.
Qed.

Record clean_df {DM D} (df : Datafit F DM D) : Prop := {
  c_in : forall d ds, clean (df_initialize df d ds);
  c_va : forall d ds x, clean (df_value df d ds x);
  c_gr : forall d ds x j, clean (df_gradient_j df d ds x j) }.

Lemma clean_quad_dense : clean_df (quad_dense o).
Proof.
  constructor; intros; cbn [df_initialize df_value df_gradient_j quad_dense];
    unfold quad_dense_initialize, quad_value, quad_dense_gradient_j; cl.
Qed.
Lemma clean_quad_sparse : clean_df (quad_sparse o).
Proof.
  constructor; intros; cbn [df_initialize df_value df_gradient_j quad_sparse];
    unfold quad_sparse_initialize, quad_value, quad_sparse_gradient_j; cl.
Qed.
Lemma clean_log_dense : clean_df (log_dense o).
Proof.
  constructor; intros; cbn [df_initialize df_value df_gradient_j log_dense];
    unfold log_dense_initialize, log_value, log_dense_gradient_j; cl.
Qed.
Lemma clean_log_sparse : clean_df (log_sparse o).
Proof.
  constructor; intros; cbn [df_initialize df_value df_gradient_j log_sparse];
    unfold log_sparse_initialize, log_value, log_sparse_gradient_j; cl.
Qed.

Record clean_dfm {DM D} (df : DatafitMT F DM D) : Prop := {
  c_inm : forall d ds, clean (dfm_initialize df d ds);
  c_vam : forall d ds x, clean (dfm_value df d ds x);
  c_grm : forall d ds x j, clean (dfm_gradient_j df d ds x j) }.

Lemma clean_qmt_dense : clean_dfm (qmt_dense o).
Proof.
  constructor; intros; cbn [dfm_initialize dfm_value dfm_gradient_j qmt_dense];
    unfold qmt_dense_initialize, qmt_value, qmt_dense_gradient_j; cl.
Qed.
Lemma clean_qmt_sparse : clean_dfm (qmt_sparse o).
Proof.
  constructor; intros; cbn [dfm_initialize dfm_value dfm_gradient_j qmt_sparse];
    unfold qmt_sparse_initialize, qmt_sparse_init_feature, qmt_value, qmt_sparse_gradient_j; cl.
Qed.
End Parts.

#[global] Hint Resolve cl_point : clean.

(** ** The scores which are sorted *)
Section Sort.
Context {F : Type} (o : FOps F).

(** a score which is NaN belongs to a feature whose coefficient is not zero *)
Definition nan_only_active (active : nat -> Prop) (kkt : list F) : Prop :=
  forall i s, nth_error kkt i = Some s -> fisnan o s = true -> active i.

Definition active1 (w : list F) (i : nat) : Prop :=
  exists wi, nth_error w i = Some wi /\ feq o wi (f0 o) = false.
Definition activeT (W : mat F) (i : nat) : Prop :=
  i < mnr W /\ exists wi, nth_error (mrows W) i = Some wi /\ any_nonzero o wi = true.

Lemma nth_upd : forall A (l : list A) i a k s,
  nth_error (upd l i a) k = Some s -> (k = i /\ s = a) \/ (k <> i /\ nth_error l k = Some s).
Proof.
  intros A l. induction l as [|x l IH]; intros [|i] a [|k] s E; cbn in *; try discriminate.
  - injection E as <-. left; auto.
  - right; auto.
  - right; auto.
  - destruct (IH _ _ _ _ E) as [[-> ->]|[H1 H2]]; [left|right]; auto.
Qed.

(** a loop which overwrites the active positions with [inf] *)
Lemma mark_gen : forall (step : list F * nat -> nat -> res (list F * nat)) (active : nat -> Prop) n,
  fisnan o (finf o) = false ->
  (forall st j st', j < n -> step st j = Ret st' ->
     (active j /\ fst st' = upd (fst st) j (finf o)) \/ (~ active j /\ st' = st)) ->
  (forall j, active j -> j < n) ->
  forall kkt c st', nan_only_active active kkt ->
  foldM step (seq 0 n) (kkt, c) = Ret st' -> existsb (fisnan o) (fst st') = false.
Proof.
  intros step active n Hinf Hstep Hlt kkt c st' Hk E.
  assert (G : forall m a st st', a + m = n -> nan_only_active (fun i => active i /\ a <= i) (fst st) ->
    foldM step (seq a m) st = Ret st' -> nan_only_active (fun i => active i /\ a + m <= i) (fst st')).
  { clear E Hk st' kkt c. induction m as [|m IH]; intros a st st' Ham H E; cbn [seq foldM] in E.
    - injection E as <-. rewrite Nat.add_0_r. exact H.
    - destruct (step st a) as [s1|e] eqn:Es; [|discriminate].
      cbn [bind] in E. replace (a + S m) with (S a + m) by lia.
      apply (IH (S a) s1); [lia| |exact E].
      intros i s Hs Hn. destruct (Hstep st a s1 ltac:(lia) Es) as [[Ha Hu]|[Ha Hu]].
      + rewrite Hu in Hs. destruct (nth_upd _ _ _ _ _ _ Hs) as [[-> ->]|[Hne Hs']].
        * congruence.
        * destruct (H i s Hs' Hn). split; [assumption|lia].
      + subst s1. destruct (H i s Hs Hn) as [Hi Hle]. split; [assumption|].
        destruct (Nat.eq_dec i a) as [->|Hne]; [contradiction|lia]. }
  assert (Hk0 : nan_only_active (fun i => active i /\ 0 <= i) kkt).
  { intros i s Hs Hn. split; [exact (Hk i s Hs Hn)|lia]. }
  specialize (G n 0 (kkt, c) st' eq_refl Hk0 E).
  destruct (existsb (fisnan o) (fst st')) eqn:Ex; [|reflexivity].
  apply existsb_exists in Ex. destruct Ex as (s & Hin & Hn).
  apply In_nth_error in Hin. destruct Hin as (i & Hi).
  destruct (G i s Hi Hn) as [Ha Hle]. specialize (Hlt i Ha). lia.
Qed.

Hypothesis inf_ok : fisnan o (finf o) = false.

Lemma mark_clean : forall w kkt c st,
  nan_only_active (active1 w) kkt ->
  foldM (fun st j =>
    wj <- vget w j ;;
    if negb (feq o wj (f0 o)) then
      kkt' <- vset (fst st) j (finf o) ;; Ret (kkt', S (snd st))
    else Ret st) (seq 0 (length w)) (kkt, c) = Ret st -> existsb (fisnan o) (fst st) = false.
Proof.
  intros w kkt c st Hk E.
  refine (mark_gen _ (active1 w) (length w) inf_ok _ _ kkt c st Hk E).
  - intros s j s' Hj Es. unfold vget in Es. destruct (nth_error w j) as [wj|] eqn:Ew; [|discriminate].
    cbn [bind] in Es. destruct (feq o wj (f0 o)) eqn:Ez; cbn [negb] in Es.
    + right. injection Es as <-. split; [|reflexivity]. intros (x & Hx & Hx0). congruence.
    + left. unfold vset in Es. destruct (j <? length (fst s)); [|discriminate].
      injection Es as <-. split; [|reflexivity]. exists wj; auto.
  - intros j (x & Hx & _). apply nth_error_Some. congruence.
Qed.

Lemma mark_clean_mt : forall W kkt c st,
  nan_only_active (activeT W) kkt ->
  foldM (fun st j =>
    Wj <- mrow W j ;;
    if any_nonzero o Wj then
      kkt' <- vset (fst st) j (finf o) ;; Ret (kkt', S (snd st))
    else Ret st) (seq 0 (mnr W)) (kkt, c) = Ret st -> existsb (fisnan o) (fst st) = false.
Proof.
  intros W kkt c st Hk E.
  refine (mark_gen _ (activeT W) (mnr W) inf_ok _ _ kkt c st Hk E).
  - intros s j s' Hj Es. unfold mrow, vget in Es.
    destruct (nth_error (mrows W) j) as [wj|] eqn:Ew; [|discriminate].
    cbn [bind] in Es. destruct (any_nonzero o wj) eqn:Ez.
    + left. unfold vset in Es. destruct (j <? length (fst s)); [|discriminate].
      injection Es as <-. split; [|reflexivity]. split; [assumption|]. exists wj; auto.
    + right. injection Es as <-. split; [|reflexivity]. intros (_ & x & Hx & Hx0). congruence.
  - intros j (H & _). exact H.
Qed.
End Sort.

(** ** The solvers *)
Section Solver.
Context {F DM D P : Type} (o : FOps F) (dm : DesignMatrix F DM) (df : Datafit F DM D)
  (pen : Penalty F P) (srt : list F -> list nat).
Hypothesis inf_ok : fisnan o (finf o) = false.
Hypothesis Hdm : clean_dm dm.
Hypothesis Hdf : clean_df df.
Hypothesis Hcl : forall p w g ws, clean (pen_subdiff_distance pen p w g ws).
Hypothesis Hpen : forall p w g n kkt m,
  pen_subdiff_distance pen p w g (seq 0 n) = Ret (kkt, m) -> nan_only_active o (active1 o w) kkt.

Let h_nf := c_nf _ Hdm. Let h_ex := c_ex _ Hdm. Let h_up := c_up _ Hdm.
Let h_in := c_in _ Hdf. Let h_va := c_va _ Hdf. Let h_gr := c_gr _ Hdf.
Hint Resolve h_nf h_ex h_up h_in h_va h_gr Hcl : clean.

Lemma cl_opt : forall ds w Xw ws d p, clean (opt_cond_violation df pen ds w Xw ws d p).
Proof. intros. unfold opt_cond_violation, construct_grad. cl. Qed.
Hint Resolve cl_opt : clean.

Lemma cl_step : forall ds d p st j, clean (cd_step o dm df pen ds d p st j).
Proof. intros ds d p [w Xw] j. unfold cd_step. cl. Qed.
Hint Resolve cl_step : clean.

Lemma cl_accel : forall ds d p lk w Xw ws e K v,
  clean (anderson_accel o dm df pen ds d p lk w Xw ws e K v).
Proof. intros. unfold anderson_accel, store_iterate, scatter. cl. Qed.
Hint Resolve cl_accel : clean.

Lemma cl_inner : forall ds d p nf tol km K a v ws wsz es w Xw lk,
  clean (inner_loop o dm df pen ds d p nf tol km K a v ws wsz es w Xw lk).
Proof.
  intros ds d p nf tol km K a v ws wsz es. induction es as [|e es IH]; intros; cbn [inner_loop]; cl.
Qed.
Hint Resolve cl_inner : clean.

Lemma cl_ws : forall kkt w s, nan_only_active o (active1 o w) kkt ->
  clean (construct_ws_from_kkt o srt kkt w s).
Proof.
  intros kkt w s Hk. unfold construct_ws_from_kkt, mark_nonzero.
  apply clean_bind; [cl|]. intros [kkt' nnz] Em.
  pose proof (mark_clean o inf_ok w kkt 0 (kkt', nnz) Hk Em) as Hn. cbn [fst] in Hn.
  apply clean_bind.
  - unfold argsort_desc. rewrite Hn, andb_false_r. apply clean_ret.
  - intros. cl.
Qed.

Lemma cl_outer : forall ds d p nf s me tol K a v it w Xw,
  clean (outer_loop o dm df pen srt ds d p nf s me tol K a v it w Xw).
Proof.
  intros ds d p nf s me tol K a v it. induction it as [|it IH]; intros; cbn [outer_loop]; [cl|].
  apply clean_bind; [auto with clean|]. intros [kkt km] Ek.
  destruct (fle o km tol); [cl|].
  apply clean_bind; [|intros [ws wsz] _; cl].
  apply cl_ws. unfold opt_cond_violation in Ek.
  destruct (construct_grad df ds Xw (seq 0 nf) d) as [g|]; [|discriminate].
  exact (Hpen _ _ _ _ _ _ Ek).
Qed.
Hint Resolve cl_outer : clean.

Theorem cl_cd : forall ds d p s mi me tol K a v,
  clean (coordinate_descent o dm df pen srt ds d p s mi me tol K a v).
Proof. intros. unfold coordinate_descent. cl. Qed.
End Solver.

Section SolverMT.
Context {F DM D P : Type} (o : FOps F) (dm : DesignMatrix F DM) (df : DatafitMT F DM D)
  (pen : PenaltyMT F P) (srt : list F -> list nat).
Hypothesis inf_ok : fisnan o (finf o) = false.
Hypothesis Hdm : clean_dm dm.
Hypothesis Hdf : clean_dfm df.
Hypothesis Hcl : forall p w g ws, clean (bpen_subdiff_distance pen p w g ws).
Hypothesis Hpen : forall p W g n kkt m, mnr W = n ->
  bpen_subdiff_distance pen p W g (seq 0 n) = Ret (kkt, m) -> nan_only_active o (activeT o W) kkt.

Let h_nf := c_nf _ Hdm. Let h_ex := c_exm _ Hdm. Let h_up := c_upm _ Hdm.
Let h_in := c_inm _ Hdf. Let h_va := c_vam _ Hdf. Let h_gr := c_grm _ Hdf.
Hint Resolve h_nf h_ex h_up h_in h_va h_gr Hcl : clean.

Lemma cl_opt_mt : forall ds w Xw ws d p, clean (opt_cond_violation_mt df pen ds w Xw ws d p).
Proof. intros. unfold opt_cond_violation_mt, construct_grad_mt. cl. Qed.
Hint Resolve cl_opt_mt : clean.

Lemma cl_step_mt : forall ds d p st j, clean (bcd_step o dm df pen ds d p st j).
Proof. intros ds d p [w Xw] j. unfold bcd_step. cl. Qed.
Hint Resolve cl_step_mt : clean.

Lemma cl_accel_mt : forall ds d p lk w Xw ws e K v,
  clean (anderson_accel_mt o dm df pen ds w Xw d p ws lk e K v).
Proof. intros. unfold anderson_accel_mt, store_iterate_mt, scatter_mt. cl. Qed.
Hint Resolve cl_accel_mt : clean.

Lemma cl_inner_mt : forall ds d p nf tol km K a v ws wsz es w Xw lk,
  clean (inner_loop_mt o dm df pen ds d p nf tol km K a v ws wsz es w Xw lk).
Proof.
  intros ds d p nf tol km K a v ws wsz es. induction es as [|e es IH]; intros; cbn [inner_loop_mt]; cl.
Qed.
Hint Resolve cl_inner_mt : clean.

Lemma mset_mnr : forall (m : mat F) i j v m', mset m i j v = Ret m' -> mnr m' = mnr m.
Proof.
  intros m i j v m' E. unfold mset in E. destruct (vget (mrows m) i); [|discriminate]. cbn [bind] in E.
  destruct (vset _ j v); [|discriminate]. cbn [bind] in E.
  destruct (vset _ i _); [|discriminate]. cbn [bind] in E. injection E as <-. reflexivity.
Qed.

Lemma mset_row_mnr : forall (m : mat F) i v m', mset_row m i v = Ret m' -> mnr m' = mnr m.
Proof.
  intros m i v m' E. unfold mset_row in E. destruct (vget (mrows m) i); [|discriminate]. cbn [bind] in E.
  destruct (_ =? _); [|discriminate]. destruct (vset _ _ _); [|discriminate].
  cbn [bind] in E. injection E as <-. reflexivity.
Qed.

Lemma foldM_mnr : forall A (f : mat F -> A -> res (mat F)) l m m',
  (forall m a m', f m a = Ret m' -> mnr m' = mnr m) -> foldM f l m = Ret m' -> mnr m' = mnr m.
Proof.
  intros A f l. induction l as [|a l IH]; intros m m' H E; cbn [foldM] in E.
  - injection E as <-. reflexivity.
  - destruct (f m a) as [m1|] eqn:E1; [|discriminate]. cbn [bind] in E.
    rewrite (IH _ _ H E). exact (H _ _ _ E1).
Qed.

Ltac next E := match type of E with
  | bind ?m _ = Ret _ => let x := fresh "x" in let Ex := fresh "Ex" in
      destruct m as [x|] eqn:Ex; [|discriminate]; cbn [bind] in E
  end.

Lemma step_mnr : forall ds d p st j st',
  bcd_step o dm df pen ds d p st j = Ret st' -> mnr (fst st') = mnr (fst st).
Proof.
  intros ds d p [W XW] j st' E. unfold bcd_step in E. next E.
  destruct (feq o x (f0 o)); [injection E as <-; reflexivity|].
  do 5 next E.
  assert (H : mnr x3 = mnr W).
  { refine (foldM_mnr _ _ _ _ _ _ Ex3). intros m a m' Em. next Em. exact (mset_mnr _ _ _ _ _ Em). }
  destruct (any_nonzero o x4).
  - next E. injection E as <-. exact H.
  - injection E as <-. exact H.
Qed.

Lemma steps_mnr : forall ds d p ws st st',
  foldM (bcd_step o dm df pen ds d p) ws st = Ret st' -> mnr (fst st') = mnr (fst st).
Proof.
  intros ds d p ws. induction ws as [|j ws IH]; intros st st' E; cbn [foldM] in E.
  - injection E as <-. reflexivity.
  - next E. rewrite (IH _ _ E). exact (step_mnr _ _ _ _ _ _ Ex).
Qed.

Lemma accel_mnr : forall ds d p lk W XW ws e K v W' XW' lk' nf,
  dm_n_features dm (design_matrix ds) = Ret nf -> mnr W = nf ->
  anderson_accel_mt o dm df pen ds W XW d p ws lk e K v = Ret (W', XW', lk') -> mnr W' = nf.
Proof.
  intros ds d p lk W XW ws e K v W' XW' lk' nf Hnf HW E. unfold anderson_accel_mt in E.
  rewrite Hnf in E. cbn [bind] in E. next E.
  destruct (e mod S K =? K); [|injection E as <- _ _; exact HW].
  next E. destruct x0 as [pt|]; [|injection E as <- _ _; exact HW].
  next E. do 3 next E.
  assert (H : mnr x0 = nf).
  { unfold scatter_mt in Ex1. next Ex1.
    rewrite (foldM_mnr _ _ _ _ _ (fun m a m' Em => mset_row_mnr _ _ _ _ Em) Ex1). reflexivity. }
  destruct (flt o _ _); injection E as <- _ _; assumption.
Qed.

Lemma inner_mnr : forall ds d p nf tol km K a v ws wsz es W XW lk W' XW',
  dm_n_features dm (design_matrix ds) = Ret nf -> mnr W = nf ->
  inner_loop_mt o dm df pen ds d p nf tol km K a v ws wsz es W XW lk = Ret (W', XW') -> mnr W' = nf.
Proof.
  intros ds d p nf tol km K a v ws wsz es. induction es as [|e es IH];
    intros W XW lk W' XW' Hnf HW E; cbn [inner_loop_mt] in E.
  - injection E as <- _. exact HW.
  - next E. destruct x as [W1 XW1]. pose proof (steps_mnr _ _ _ _ _ _ Ex) as H1. cbn [fst] in H1.
    next E. destruct x as [[W2 XW2] lk2].
    assert (H2 : mnr W2 = nf).
    { destruct a.
      - exact (accel_mnr _ _ _ _ _ _ _ _ _ _ _ _ _ _ Hnf (eq_trans H1 HW) Ex0).
      - injection Ex0 as <- _ _. congruence. }
    destruct ((0 <? e) && (e mod 10 =? 0)); [|exact (IH _ _ _ _ _ Hnf H2 E)].
    next E. next E. destruct x0 as [l km'].
    destruct (wsz =? nf).
    + destruct (fle o km' tol); [injection E as <- _; exact H2|exact (IH _ _ _ _ _ Hnf H2 E)].
    + destruct (flt o km' _); [injection E as <- _; exact H2|exact (IH _ _ _ _ _ Hnf H2 E)].
Qed.

Lemma cl_ws_mt : forall kkt W s, nan_only_active o (activeT o W) kkt ->
  clean (construct_ws_from_kkt_mt o srt kkt W s).
Proof.
  intros kkt W s Hk. unfold construct_ws_from_kkt_mt, mark_nonzero_mt.
  apply clean_bind; [cl|]. intros [kkt' nnz] Em.
  pose proof (mark_clean_mt o inf_ok W kkt 0 (kkt', nnz) Hk Em) as Hn. cbn [fst] in Hn.
  apply clean_bind.
  - unfold argsort_desc. rewrite Hn, andb_false_r. apply clean_ret.
  - intros. cl.
Qed.

Lemma cl_outer_mt : forall ds d p nf s me tol K a v it W XW,
  dm_n_features dm (design_matrix ds) = Ret nf -> mnr W = nf ->
  clean (outer_loop_mt o dm df pen srt ds d p nf s me tol K a v it W XW).
Proof.
  intros ds d p nf s me tol K a v it. induction it as [|it IH]; intros W XW Hnf HW;
    cbn [outer_loop_mt]; [cl|].
  apply clean_bind; [auto with clean|]. intros [kkt km] Ek.
  destruct (fle o km tol); [cl|].
  apply clean_bind.
  - apply cl_ws_mt. unfold opt_cond_violation_mt in Ek.
    destruct (construct_grad_mt df ds XW (seq 0 nf) d) as [g|]; [|discriminate].
    exact (Hpen _ _ _ _ _ _ HW Ek).
  - intros [ws wsz] _. apply clean_bind; [auto with clean|]. intros [W' XW'] Ei.
    apply IH; [exact Hnf|]. exact (inner_mnr _ _ _ _ _ _ _ _ _ _ _ _ _ _ _ _ _ Hnf HW Ei).
Qed.

Theorem cl_bcd : forall ds d p s mi me tol K a v,
  clean (block_coordinate_descent o dm df pen srt ds d p s mi me tol K a v).
Proof.
  intros. unfold block_coordinate_descent. apply clean_bind; [auto with clean|]. intros nf Hnf.
  apply clean_bind; [auto with clean|]. intros d' _. apply cl_outer_mt; [exact Hnf|reflexivity].
Qed.
End SolverMT.

(** ** The penalties *)
Section Pens.
Context {F : Type} (o : FOps F).
Hypothesis max_ok : forall x, fisnan o (fmax o (f0 o) x) = false.

Lemma mapM_nth : forall A B (f : A -> res B) l bs i b,
  mapM f l = Ret bs -> nth_error bs i = Some b ->
  exists a, nth_error l i = Some a /\ f a = Ret b.
Proof.
  intros A B f l. induction l as [|a l IH]; intros bs i b E Hb; cbn [mapM] in E.
  - injection E as <-. destruct i; discriminate.
  - destruct (f a) as [b0|] eqn:E0; [|discriminate]. cbn [bind] in E.
    destruct (mapM f l) as [bs'|] eqn:E1; [|discriminate]. cbn [bind] in E. injection E as <-.
    destruct i as [|i]; cbn in Hb.
    + injection Hb as <-. exists a; auto.
    + exact (IH _ _ _ eq_refl Hb).
Qed.

Lemma nth_combine_seq : forall A (l : list A) n s i p,
  nth_error (combine l (seq s n)) i = Some p -> snd p = s + i /\ i < n.
Proof.
  intros A l. induction l as [|a l IH]; intros [|n] s [|i] p E; cbn in E; try discriminate.
  - injection E as <-. cbn. lia.
  - destruct (IH _ _ _ _ E). lia.
Qed.

Lemma cl_scores : forall sc (w g : list F) ws, clean (scores o sc w g ws).
Proof. intros. unfold scores. cl. Qed.
Lemma cl_bscores : forall sc (w g : mat F) ws, clean (bscores o sc w g ws).
Proof. intros. unfold bscores. cl. Qed.

Lemma scores_nan : forall sc (w g : list F) n kkt m,
  (forall wj gj, feq o wj (f0 o) = true -> fisnan o (sc wj gj) = false) ->
  scores o sc w g (seq 0 n) = Ret (kkt, m) -> nan_only_active o (active1 o w) kkt.
Proof.
  intros sc w g n kkt m H E i s Hs Hn. unfold scores in E.
  destruct (mapM _ _) as [d|] eqn:Ed; [|discriminate]. cbn [bind] in E. injection E as <- _.
  destruct (mapM_nth _ _ _ _ _ _ _ Ed Hs) as ([gj j] & Hp & Hf).
  destruct (nth_combine_seq _ _ _ _ _ _ Hp) as [Hj _]. cbn in Hj, Hf. subst j.
  unfold vget in Hf. destruct (nth_error w i) as [wi|] eqn:Ew; [|discriminate].
  cbn [bind] in Hf. injection Hf as <-. exists wi. split; [exact Ew|].
  destruct (feq o wi (f0 o)) eqn:Ez; [|reflexivity]. rewrite (H _ _ Ez) in Hn. discriminate.
Qed.

Lemma bscores_nan : forall sc (W g : mat F) n kkt m,
  (forall wj gj, any_nonzero o wj = false -> fisnan o (sc wj gj) = false) -> mnr W = n ->
  bscores o sc W g (seq 0 n) = Ret (kkt, m) -> nan_only_active o (activeT o W) kkt.
Proof.
  intros sc W g n kkt m H HW E i s Hs Hn. unfold bscores in E.
  destruct (mapM _ _) as [d|] eqn:Ed; [|discriminate]. cbn [bind] in E. injection E as <- _.
  destruct (mapM_nth _ _ _ _ _ _ _ Ed Hs) as ([gj j] & Hp & Hf).
  destruct (nth_combine_seq _ _ _ _ _ _ Hp) as [Hj Hlt]. cbn in Hj, Hf. subst j.
  unfold mrow, vget in Hf. destruct (nth_error (mrows W) i) as [wi|] eqn:Ew; [|discriminate].
  cbn [bind] in Hf. injection Hf as <-. split; [lia|]. exists wi. split; [exact Ew|].
  destruct (any_nonzero o wi) eqn:Ez; [reflexivity|]. rewrite (H _ _ Ez) in Hn. discriminate.
Qed.

Lemma l1_nan : forall p wj g, feq o wj (f0 o) = true -> fisnan o (l1_score o p wj g) = false.
Proof. intros p wj g H. unfold l1_score. rewrite H. apply max_ok. Qed.
Lemma l1l2_nan : forall p wj g, feq o wj (f0 o) = true -> fisnan o (l1l2_score o p wj g) = false.
Proof. intros p wj g H. unfold l1l2_score. rewrite H. apply max_ok. Qed.
Lemma mcp_nan : forall p wj g, feq o wj (f0 o) = true -> fisnan o (mcp_score o p wj g) = false.
Proof. intros p wj g H. unfold mcp_score. rewrite H. apply max_ok. Qed.
Lemma l21_nan : forall p wj g, any_nonzero o wj = false -> fisnan o (l21_score o p wj g) = false.
Proof. intros p wj g H. unfold l21_score. rewrite H. apply max_ok. Qed.
Lemma bl1l2_nan : forall p wj g, any_nonzero o wj = false -> fisnan o (bl1l2_score o p wj g) = false.
Proof. intros p wj g H. unfold bl1l2_score. rewrite H. apply max_ok. Qed.
Lemma bmcp_nan : forall p wj g, any_nonzero o wj = false -> fisnan o (bmcp_score o p wj g) = false.
Proof. intros p wj g H. unfold bmcp_score. rewrite H. apply max_ok. Qed.

Hypothesis zero_ok : fisnan o (f0 o) = false.
Lemma l05_nan : forall p w g n kkt m,
  l05_subdiff_distance o p w g (seq 0 n) = Ret (kkt, m) -> nan_only_active o (active1 o w) kkt.
Proof.
  intros p w g n kkt m E i s Hs Hn. unfold l05_subdiff_distance in E. injection E as <- _.
  apply nth_error_In in Hs. apply repeat_spec in Hs. congruence.
Qed.
End Pens.
