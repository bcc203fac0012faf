(** Instances for the properties about the storage of sparse designs, reused datafits and the representation of targets. *)
From Coq Require Import List ZArith Bool Arith Lia.
From Flocq Require Import Core BinarySingleNaN.
From Verif Require Import Ops Arr IEEE SpecRound SpecSolve SpecLayout PHyperEx PFloat PRoundEx PRunsEx PTraceEx MUtils MDatasets MDatafits MDatafitsMT MPenalties MBlockPenalties MCd MBcd MHyper MEstimators PBisim PLayout.
Import ListNotations.

Lemma unwrap_all {F} (o : FOps F) (p : params F) :
  Forall (fun chk => (forall q, check_unwrap chk p = Ret q <-> chk p = Ok q) /\ (check_unwrap chk p = Panic PUnwrap <-> exists e, chk p = Err e) /\ ((exists q, check_unwrap chk p = Ret q) \/ check_unwrap chk p = Panic PUnwrap))
    [lasso_check_ref o; mt_lasso_check_ref o; mcp_check_ref o; block_mcp_check_ref o; elastic_net_check_ref o; mt_elastic_net_check_ref o].
Proof.
  apply (Forall_impl _ (P := fun chk => (forall q, chk p = Ok q -> q = p) /\ check chk p = chk p)); [|exact (all_checks_unchanged o p)].
  intros chk [H1 H2]. unfold check_unwrap. rewrite H2. destruct (chk p) as [q|e]; (split; [intros r; split; congruence|]); (split; [split; [intros H; try discriminate; eauto|intros [e' H]; congruence]|]); eauto.
Qed.

Lemma reuse_single {F} (o : FOps F) srt sv : (forall P (pen : Penalty F P) q,
    (forall ds d1 d2, solve o srt (dense_dm o) (quad_dense o) pen sv ds d1 q = solve o srt (dense_dm o) (quad_dense o) pen sv ds d2 q) /\
    (forall ds d1 d2, solve o srt (sparse_dm o) (quad_sparse o) pen sv ds d1 q = solve o srt (sparse_dm o) (quad_sparse o) pen sv ds d2 q) /\
    (forall ds d1 d2, solve o srt (dense_dm o) (log_dense o) pen sv ds d1 q = solve o srt (dense_dm o) (log_dense o) pen sv ds d2 q) /\
    (forall ds d1 d2, solve o srt (sparse_dm o) (log_sparse o) pen sv ds d1 q = solve o srt (sparse_dm o) (log_sparse o) pen sv ds d2 q)) /\
  (forall P (pen : PenaltyMT F P) q,
    (forall ds d1 d2, solve_multi_task o srt (dense_dm o) (qmt_dense o) pen sv ds d1 q = solve_multi_task o srt (dense_dm o) (qmt_dense o) pen sv ds d2 q) /\
    (forall ds d1 d2, solve_multi_task o srt (sparse_dm o) (qmt_sparse o) pen sv ds d1 q = solve_multi_task o srt (sparse_dm o) (qmt_sparse o) pen sv ds d2 q)).
Proof. repeat split. Qed.

Lemma vector_or_column {F} (o : FOps F) srt sv (y : list F) : let col := Mat (length y) 1 (map (fun v => [v]) y) in
  (forall P (pen : Penalty F P) q,
    (forall X d, solve o srt (dense_dm o) (quad_dense o) pen sv (Dataset X (T1 y)) d q = solve o srt (dense_dm o) (quad_dense o) pen sv (Dataset X (T2 col)) d q) /\
    (forall X d, solve o srt (sparse_dm o) (quad_sparse o) pen sv (Dataset X (T1 y)) d q = solve o srt (sparse_dm o) (quad_sparse o) pen sv (Dataset X (T2 col)) d q) /\
    (forall X d, solve o srt (dense_dm o) (log_dense o) pen sv (Dataset X (T1 y)) d q = solve o srt (dense_dm o) (log_dense o) pen sv (Dataset X (T2 col)) d q) /\
    (forall X d, solve o srt (sparse_dm o) (log_sparse o) pen sv (Dataset X (T1 y)) d q = solve o srt (sparse_dm o) (log_sparse o) pen sv (Dataset X (T2 col)) d q)) /\
  (forall P (pen : PenaltyMT F P) q,
    (forall X d, solve_multi_task o srt (dense_dm o) (qmt_dense o) pen sv (Dataset X (T1 y)) d q = solve_multi_task o srt (dense_dm o) (qmt_dense o) pen sv (Dataset X (T2 col)) d q) /\
    (forall X d, solve_multi_task o srt (sparse_dm o) (qmt_sparse o) pen sv (Dataset X (T1 y)) d q = solve_multi_task o srt (sparse_dm o) (qmt_sparse o) pen sv (Dataset X (T2 col)) d q)).
Proof. intros col. repeat (match goal with |- _ /\ _ => split end); intros P pen q; repeat (match goal with |- _ /\ _ => split end); intros X d; unfold solve, solve_multi_task;
  first [apply (b_cd o _ _ _ _ pen srt _ _ d d q eq) | apply (bm_cd o _ _ _ _ pen srt _ _ d d q eq)]; try reflexivity;
  first [intros Xw Xw' a j ->; apply rr_refl; reflexivity | intros _ ws w; apply rr_refl; reflexivity
    | match goal with |- rr ?P ?a ?b => change (rr P a a) end; apply rr_refl; intros e _; split; [reflexivity|]; split; [intros Xw Xw' j ->; reflexivity|];
      intros Xw Xw' ->; match goal with |- rr ?P ?a ?b => change (rr P a a) end; apply rr_refl; intros v _ _; reflexivity].
Qed.
Lemma same_moved {A} n (l : list A) : length l = n -> moved n (fun i => i) l l.
Proof. intros H. repeat split; auto. Qed.
Lemma same_labels {F} n p (cs : nat -> list (nat * F)) c : holds n p cs c -> holds n p (relabelled (fun i => i) cs) c.
Proof.
  assert (E : forall j, relabelled (fun i => i) cs j = cs j). { intros j. unfold relabelled. rewrite <- (map_id (cs j)) at 2. apply map_ext. intros [a b]. reflexivity. }
  intros [H1 H2]. split; [exact H1|]. intros j Hj. rewrite (E j). exact (H2 j Hj).
Qed.
Lemma stored_layout {F} (o : FOps F) n p cs X X' srt sv : holds n p cs X -> holds n p cs X' ->
  (forall y P (pen : Penalty F P) q, length y = n ->
    (forall d d', solve o srt (sparse_dm o) (quad_sparse o) pen sv (Dataset X (T1 y)) d q = solve o srt (sparse_dm o) (quad_sparse o) pen sv (Dataset X' (T1 y)) d' q) /\
    (forall d d', solve o srt (sparse_dm o) (log_sparse o) pen sv (Dataset X (T1 y)) d q = solve o srt (sparse_dm o) (log_sparse o) pen sv (Dataset X' (T1 y)) d' q)) /\
  (forall nt rows P (pen : PenaltyMT F P) q d d', length rows = n ->
    solve_multi_task o srt (sparse_dm o) (qmt_sparse o) pen sv (Dataset X (T2 (Mat n nt rows))) d q = solve_multi_task o srt (sparse_dm o) (qmt_sparse o) pen sv (Dataset X' (T2 (Mat n nt rows))) d' q).
Proof.
  intros HX HX'. assert (RL : relabels n (fun i => i)) by (split; auto). apply same_labels in HX'. split.
  - intros y P pen q L. pose proof (same_moved n y L) as HM. split; intros d d'; [eapply layout_quad|eapply layout_log]; eauto.
  - intros nt rows P pen q d d' L. pose proof (same_moved n rows L) as HM. eapply layout_qmt; eauto.
Qed.

Lemma vget_new {F} (o : FOps F) j : vget (q_Xty (quadratic_new o)) (S j) = Panic POob.
Proof. unfold vget. cbn. destruct j; reflexivity. Qed.
Lemma new_oob {F} (o : FOps F) X t Xw j :
  (exists c, mcol (f0 o) X (S j) = Ret c /\ length c = length Xw) -> (df_gradient_j (quad_dense o) (quadratic_new o) (Dataset X t) Xw (S j) = Panic POob).
Proof. intros (c & E & H). cbn [quad_dense df_gradient_j]. unfold quad_dense_gradient_j. cbn [design_matrix]. rewrite E. cbn [bind]. unfold vdot. rewrite H, Nat.eqb_refl. cbn [bind]. rewrite vget_new. reflexivity. Qed.
Lemma new_steps {F} (o : FOps F) :
  df_step_size (quad_dense o) (df_new (quad_dense o)) = [f0 o] /\ df_step_size (quad_sparse o) (df_new (quad_sparse o)) = [f0 o] /\
  df_step_size (log_dense o) (df_new (log_dense o)) = [f0 o] /\ df_step_size (log_sparse o) (df_new (log_sparse o)) = [f0 o] /\
  dfm_step_size (qmt_dense o) (dfm_new (qmt_dense o)) = [f0 o] /\ dfm_step_size (qmt_sparse o) (dfm_new (qmt_sparse o)) = [f0 o].
Proof. repeat split. Qed.
Lemma new_update {F DM D P} (o : FOps F) (dm : DesignMatrix F DM) (df : Datafit F DM D) (pen : Penalty F P) ds q s : df_step_size df (df_new df) = [f0 o] ->
  (forall j, cd_step o dm df pen ds (df_new df) q s (S j) = Panic POob) /\ (feq o (f0 o) (f0 o) = true -> cd_step o dm df pen ds (df_new df) q s 0 = Ret s).
Proof.
  intros E. destruct s as [w Xw]. unfold cd_step. rewrite E. split; [intros j; unfold vget; cbn; destruct j; reflexivity|]. intros H. cbn [vget nth_error bind]. unfold vget. cbn. rewrite H. auto.
Qed.
Lemma new_update_mt {F DM D P} (o : FOps F) (dm : DesignMatrix F DM) (df : DatafitMT F DM D) (pen : PenaltyMT F P) ds q s : dfm_step_size df (dfm_new df) = [f0 o] ->
  (forall j, bcd_step o dm df pen ds (dfm_new df) q s (S j) = Panic POob) /\ (feq o (f0 o) (f0 o) = true -> bcd_step o dm df pen ds (dfm_new df) q s 0 = Ret s).
Proof.
  intros E. destruct s as [w Xw]. unfold bcd_step. rewrite E. split; [intros j; unfold vget; cbn; destruct j; reflexivity|]. intros H. unfold vget. cbn. rewrite H. auto.
Qed.
Lemma new_updates {F} (o : FOps F) :
  (no_update o (dense_dm o) (quad_dense o) /\ no_update o (sparse_dm o) (quad_sparse o) /\ no_update o (dense_dm o) (log_dense o) /\ no_update o (sparse_dm o) (log_sparse o)) /\
  no_update_mt o (dense_dm o) (qmt_dense o) /\ no_update_mt o (sparse_dm o) (qmt_sparse o).
Proof.
  destruct (new_steps o) as (A & B & C & E & G & H). unfold no_update, no_update_mt.
  repeat match goal with |- _ /\ _ => split | |- forall _, _ => intro end.
  all: first [apply (new_update o (dense_dm o) (quad_dense o)); auto|apply (new_update o (sparse_dm o) (quad_sparse o)); auto|apply (new_update o (dense_dm o) (log_dense o)); auto|apply (new_update o (sparse_dm o) (log_sparse o)); auto|
    apply (new_update_mt o (dense_dm o) (qmt_dense o)); auto|apply (new_update_mt o (sparse_dm o) (qmt_sparse o)); auto].
Qed.
Definition stale_b : bool :=
  match df_initialize (quad_dense ops64) (quadratic_new ops64) (Dataset rX ry), df_initialize (quad_dense ops64) (quadratic_new ops64) (Dataset rX (T1 (map f64_of [1; 1; 1]%Z))) with
  | Ret d, Ret d' => match df_gradient_j (quad_dense ops64) d (Dataset rX (T1 (map f64_of [1; 1; 1]%Z))) (repeat (f64_of 0) 3) 0, df_gradient_j (quad_dense ops64) d' (Dataset rX (T1 (map f64_of [1; 1; 1]%Z))) (repeat (f64_of 0) 3) 0 with
      | Ret g, Ret g' => negb (same [g] [g']) | _, _ => false end
  | _, _ => false end.
Lemma stale_ok : stale_b = true. Proof. vm_compute. reflexivity. Qed.
Lemma same_refl a : same a a = true.
Proof. unfold same. destruct (list_eq_dec _ _ _); [reflexivity|contradiction]. Qed.
Lemma stale_refuted : exists X y y' Xw d g, df_initialize (quad_dense ops64) (quadratic_new ops64) (Dataset X y) = Ret d /\
  df_gradient_j (quad_dense ops64) d (Dataset X y') Xw 0 = Ret g /\
  forall d', df_initialize (quad_dense ops64) d (Dataset X y') = Ret d' -> df_gradient_j (quad_dense ops64) d' (Dataset X y') Xw 0 <> Ret g.
Proof.
  pose proof stale_ok as H. unfold stale_b in H.
  exists rX, ry, (T1 (map f64_of [1; 1; 1]%Z)), (repeat (f64_of 0) 3).
  destruct (df_initialize (quad_dense ops64) (quadratic_new ops64) (Dataset rX ry)) as [d|] eqn:E1; [|discriminate].
  destruct (df_initialize (quad_dense ops64) (quadratic_new ops64) (Dataset rX (T1 _))) as [d'|] eqn:E2; [|discriminate].
  destruct (df_gradient_j (quad_dense ops64) d _ _ 0) as [g|] eqn:E3; [|discriminate]. destruct (df_gradient_j (quad_dense ops64) d' _ _ 0) as [g'|] eqn:E4; [|discriminate].
  exists d, g. split; [reflexivity|]. split; [exact E3|]. intros e He. change (df_initialize (quad_dense ops64) (quadratic_new ops64) (Dataset rX (T1 (map f64_of [1; 1; 1]%Z))) = Ret e) in He. rewrite E2 in He. injection He as <-. rewrite E4. intros K. injection K as ->. rewrite same_refl in H. discriminate.
Qed.

(** the samples of [rC] in the order 2, 0, 1, with three meaningless stored pairs *)
Definition turn (i : nat) : nat := match i with 0 => 1 | 1 => 2 | _ => 0 end.
Lemma turn_ok : relabels 3 turn.
Proof. split; [intros [|[|[|i]]]; cbn; lia|]. intros [|[|[|i]]] [|[|[|k]]]; cbn; lia. Qed.
Definition tC : csc f64 := Csc (map f64_of [7; 1; 3; 2; 1; -1; 8; 9]%Z) [5; 1; 0; 1; 2; 0; -1; 70]%Z [1; 3; 6]%Z.
Definition ty : list f64 := map f64_of [4; 3; -1]%Z.
Ltac col lo := split; [exists lo; split; [reflexivity|split; [reflexivity|]]; intros [|[|[|k]]] e Hk; cbn [rcs relabelled map turn fst snd nth_error] in Hk; try discriminate; try (injection Hk as <-; split; reflexivity); destruct k; discriminate|];
  cbn [rcs In relabelled map turn fst snd]; intros e [<-|[<-|He]]; cbn [fst]; [lia|lia|]; try contradiction; destruct He as [<-|[]]; cbn [fst]; lia.
Lemma rC_holds : holds 3 2 rcs rC. Proof. split; [reflexivity|]. intros [|[|j]] Hj; [col 0|col 2|lia]. Qed.
Lemma tC_holds : holds 3 2 (relabelled turn rcs) tC. Proof. split; [reflexivity|]. intros [|[|j]] Hj; [col 1|col 3|lia]. Qed.
Lemma ty_moved : moved 3 turn (map f64_of [3; -1; 4]%Z) ty.
Proof. split; [reflexivity|split; [reflexivity|]]. intros [|[|[|i]]] Hi; [reflexivity|reflexivity|reflexivity|lia]. Qed.
(** leading and trailing junk only *)
Definition jC : csc f64 := Csc (map f64_of [7; 1; 3; 2; 1; -1; 8]%Z) [5; 0; 2; 0; 1; 2; -1]%Z [1; 3; 6]%Z.
Lemma jC_holds : holds 3 2 rcs jC. Proof. split; [reflexivity|]. intros [|[|j]] Hj; [col 1|col 3|lia]. Qed.
Definition asolver : solver f64 := Solver 10 2 25 (flit ops64 1 1000000) 2 true false.
Definition nzb (r : res (list f64)) : bool := match r with Ret (x :: _) => fin x && nz x | _ => false end.
Definition nonzero_run (r : res (list f64)) : Prop := exists w, r = Ret w /\ nonzero ops64 w 0.
Lemma nzb_ok r : nzb r = true -> nonzero_run r.
Proof. destruct r as [[|x w]|]; try discriminate. cbn [nzb]. intros H. apply andb_true_iff in H as [_ H]. exists (x :: w). split; [reflexivity|]. exists x. split; [reflexivity|]. apply nz_fin in H. apply H. Qed.
Lemma run_q : nonzero_run (solve ops64 srt64 (sparse_dm ops64) (quad_sparse ops64) (l1_penalty ops64) csolver (Dataset rC ry) (quadratic_new ops64) (L1 (f1 ops64))).
Proof. apply nzb_ok. vm_compute. reflexivity. Qed.
Lemma run_t : nonzero_run (solve ops64 srt64 (sparse_dm ops64) (quad_sparse ops64) (l1_penalty ops64) csolver (Dataset tC (T1 ty)) (quadratic_new ops64) (L1 (f1 ops64))).
Proof. apply nzb_ok. vm_compute. reflexivity. Qed.
Lemma run_l : nonzero_run (solve ops64 srt64 (sparse_dm ops64) (quad_sparse ops64) (l1_penalty ops64) asolver (Dataset jC ry) (quadratic_new ops64) (L1 (f1 ops64))).
Proof. apply nzb_ok. vm_compute. reflexivity. Qed.

(** one column storing 1, 1, 1 in two orders; targets 2^60, 1, -2^60 *)
Definition oC : csc f64 := Csc (map f64_of [1; 1; 1]%Z) [0; 1; 2]%Z [0; 3]%Z.
Definition oC' : csc f64 := Csc (map f64_of [1; 1; 1]%Z) [0; 2; 1]%Z [0; 3]%Z.
Definition oy : targets f64 := T1 (map f64_of [2 ^ 60; 1; - 2 ^ 60]%Z).
Definition opr : params f64 := Params (tenth 1) (f0 ops64) 5 2 10 (tenth 1) 2 false false.
Definition zb (r : res (list f64)) : bool := match r with Ret w => same w [f64_of 0] | _ => false end.
Lemma zb_ok r : zb r = true -> r = Ret [f64_of 0].
Proof. destruct r as [w|]; [|discriminate]. cbn [zb]. intros H. apply same_eq in H. rewrite H. reflexivity. Qed.
Lemma order_refuted : exists c c' t v w w', (forall k, nth_error (cdata c) k = nth_error (cdata c') k) /\ cindptr c = cindptr c' /\ cindices c = [0; 1; 2]%Z /\ cindices c' = [0; 2; 1]%Z /\
  length (cdata c) = 3 /\ (forall x, In x (cdata c) -> x = f64_of 1) /\
  lasso_fit_sparse ops64 srt64 v (Dataset c t) = Ret w /\ lasso_fit_sparse ops64 srt64 v (Dataset c' t) = Ret w' /\ w = [f64_of 0] /\ nonzero ops64 w' 0.
Proof.
  assert (H1 : zb (lasso_fit_sparse ops64 srt64 opr (Dataset oC oy)) = true) by (vm_compute; reflexivity).
  assert (H2 : nzb (lasso_fit_sparse ops64 srt64 opr (Dataset oC' oy)) = true) by (vm_compute; reflexivity).
  apply nzb_ok in H2 as (w' & E2 & N2). apply zb_ok in H1.
  exists oC, oC', oy, opr, [f64_of 0], w'. repeat (split; [reflexivity|]). split; [intros x [<-|[<-|[<-|[]]]]; reflexivity|]. exact (conj H1 (conj E2 (conj eq_refl N2))).
Qed.
