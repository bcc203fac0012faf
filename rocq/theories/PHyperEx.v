(** Assembled statements and concrete evaluations for PropHyper.v. *)
From Coq Require Import List ZArith Bool Arith Reals Lra Lia.
From Verif Require Import Ops Arr MUtils MDatasets MDatafits MDatafitsMT MPenalties MBlockPenalties
  MCd MBcd MHyper MEstimators MPython XR IEEE SpecHyper PHyper PPenEx.
Import ListNotations.

Lemma all_checks_spec {F} (o : FOps F) (p : params F) :
  first_violation (lasso_rules o p) (error_of (lasso_check_ref o p)) /\
  first_violation (lasso_rules o p) (error_of (mt_lasso_check_ref o p)) /\
  first_violation (mcp_rules o p) (error_of (mcp_check_ref o p)) /\
  first_violation (lasso_rules o p) (error_of (block_mcp_check_ref o p)) /\
  first_violation (enet_rules o p) (error_of (elastic_net_check_ref o p)) /\
  first_violation (enet_rules o p) (error_of (mt_elastic_net_check_ref o p)).
Proof.
  repeat split; first [apply (proj1 (lasso_check_spec o p)) | apply (proj1 (mcp_check_spec o p))
    | apply (proj1 (enet_check_spec o p))].
Qed.
Lemma all_checks_unchanged {F} (o : FOps F) (p : params F) :
  Forall (fun chk => (forall q, chk p = Ok q -> q = p) /\ check chk p = chk p)
    [lasso_check_ref o; mt_lasso_check_ref o; mcp_check_ref o; block_mcp_check_ref o;
     elastic_net_check_ref o; mt_elastic_net_check_ref o].
Proof.
  repeat (apply Forall_cons || apply Forall_nil);
   (split; [|apply check_eq]; first [apply (proj2 (lasso_check_spec o p)) | apply (proj2 (mcp_check_spec o p))
    | apply (proj2 (enet_check_spec o p))]).
Qed.
Lemma xr_accept_all a s mi me ws t K ua vb :
  let p := Params (Fin a) (Fin s) mi me ws (Fin t) K ua vb in
  (error_of (lasso_check_ref xops p) = None <-> (0 <= a /\ 0 <= t)%R /\ (1 <= K /\ 1 <= ws)%nat) /\
  (error_of (mcp_check_ref xops p) = None <-> (0 <= a /\ 1 <= s /\ 0 <= t)%R /\ (1 <= K /\ 1 <= ws)%nat) /\
  (error_of (elastic_net_check_ref xops p) = None
     <-> (0 <= a /\ 0 <= s <= 1 /\ 0 <= t)%R /\ (1 <= K /\ 1 <= ws)%nat).
Proof.
  intros p. split; [apply xr_accept_lasso|]. split; [apply xr_accept_mcp|apply xr_accept_enet].
Qed.
Lemma ex_c33 :
  error_of (mcp_check_ref xops (Params (Fin 1) (Fin (1/2)) 1 1 0 (Fin 0) 1 true true))
  = Some (InvalidGamma (Fin (1/2))).
Proof. unfold mcp_check_ref. cbn -[Rltb]. rdec. reflexivity. Qed.
Lemma mcp_rejects_gamma {F} (o : FOps F) (p : params F) (g : F) :
  flt o g (f1 o) = true -> error_of (mcp_check_ref o (set_shape g p)) <> None.
Proof.
  intros H. unfold mcp_check_ref. simpl. rewrite H. destruct (fisneg o (p_alpha p)); simpl; discriminate.
Qed.
Lemma ex_c35 : flt xops (Fin (-3)) (f1 xops) = true /\
  error_of (block_mcp_check_ref xops (set_shape (Fin (-3)) (block_mcp_params_new xops))) = None.
Proof.
  split.
  - cbn. apply Rltb_spec. lra.
  - unfold block_mcp_check_ref. cbn. unfold Rdiv. rewrite !(proj2 (Rltb_false _ _)) by lra. reflexivity.
Qed.
Lemma est_single {F} (o : FOps F) (srt : list F -> list nat) p :
  (forall ds, fit_unchecked (lasso_check_ref o) (lasso_fit_dense o srt) p ds
    = run_as o (lasso_check_ref o) (fun s => solve o srt (dense_dm o) (quad_dense o) (l1_penalty o) s ds
        (df_new (quad_dense o)) (L1 (p_alpha p))) p) /\
  (forall ds, fit_unchecked (lasso_check_ref o) (lasso_fit_sparse o srt) p ds
    = run_as o (lasso_check_ref o) (fun s => solve o srt (sparse_dm o) (quad_sparse o) (l1_penalty o) s ds
        (df_new (quad_sparse o)) (L1 (p_alpha p))) p) /\
  (forall ds, fit_unchecked (mcp_check_ref o) (mcp_fit_dense o srt) p ds
    = run_as o (mcp_check_ref o) (fun s => solve o srt (dense_dm o) (quad_dense o) (mcp_penalty o) s ds
        (df_new (quad_dense o)) (MCP (p_alpha p) (p_shape p))) p) /\
  (forall ds, fit_unchecked (mcp_check_ref o) (mcp_fit_sparse o srt) p ds
    = run_as o (mcp_check_ref o) (fun s => solve o srt (sparse_dm o) (quad_sparse o) (mcp_penalty o) s ds
        (df_new (quad_sparse o)) (MCP (p_alpha p) (p_shape p))) p) /\
  (forall ds, fit_unchecked (elastic_net_check_ref o) (elastic_net_fit_dense o srt) p ds
    = run_as o (elastic_net_check_ref o) (fun s => solve o srt (dense_dm o) (quad_dense o) (l1l2_penalty o) s ds
        (df_new (quad_dense o)) (L1PlusL2 (p_alpha p) (p_shape p))) p) /\
  (forall ds, fit_unchecked (elastic_net_check_ref o) (elastic_net_fit_sparse o srt) p ds
    = run_as o (elastic_net_check_ref o) (fun s => solve o srt (sparse_dm o) (quad_sparse o) (l1l2_penalty o) s ds
        (df_new (quad_sparse o)) (L1PlusL2 (p_alpha p) (p_shape p))) p).
Proof.
  split; [intros; apply est_lasso_dense|]. split; [intros; apply est_lasso_sparse|].
  split; [intros; apply est_mcp_dense|]. split; [intros; apply est_mcp_sparse|].
  split; [intros; apply est_enet_dense|intros; apply est_enet_sparse].
Qed.
Lemma est_multi {F} (o : FOps F) (srt : list F -> list nat) p :
  (forall ds, fit_unchecked (mt_lasso_check_ref o) (mt_lasso_fit_dense o srt) p ds
    = run_as o (mt_lasso_check_ref o) (fun s => solve_multi_task o srt (dense_dm o) (qmt_dense o) (l21_penalty o) s ds
        (dfm_new (qmt_dense o)) (L21 (p_alpha p))) p) /\
  (forall ds, fit_unchecked (mt_lasso_check_ref o) (mt_lasso_fit_sparse o srt) p ds
    = run_as o (mt_lasso_check_ref o) (fun s => solve_multi_task o srt (sparse_dm o) (qmt_sparse o) (l21_penalty o) s ds
        (dfm_new (qmt_sparse o)) (L21 (p_alpha p))) p) /\
  (forall ds, fit_unchecked (block_mcp_check_ref o) (block_mcp_fit_dense o srt) p ds
    = run_as o (block_mcp_check_ref o) (fun s => solve_multi_task o srt (dense_dm o) (qmt_dense o) (bmcp_penalty o) s ds
        (dfm_new (qmt_dense o)) (BlockMCP (p_alpha p) (p_shape p))) p) /\
  (forall ds, fit_unchecked (block_mcp_check_ref o) (block_mcp_fit_sparse o srt) p ds
    = run_as o (block_mcp_check_ref o) (fun s => solve_multi_task o srt (sparse_dm o) (qmt_sparse o) (bmcp_penalty o) s ds
        (dfm_new (qmt_sparse o)) (BlockMCP (p_alpha p) (p_shape p))) p) /\
  (forall ds, fit_unchecked (mt_elastic_net_check_ref o) (mt_elastic_net_fit_dense o srt) p ds
    = run_as o (mt_elastic_net_check_ref o) (fun s => solve_multi_task o srt (dense_dm o) (qmt_dense o) (bl1l2_penalty o) s ds
        (dfm_new (qmt_dense o)) (BlockL1PlusL2 (p_alpha p) (p_shape p))) p) /\
  (forall ds, fit_unchecked (mt_elastic_net_check_ref o) (mt_elastic_net_fit_sparse o srt) p ds
    = run_as o (mt_elastic_net_check_ref o) (fun s => solve_multi_task o srt (sparse_dm o) (qmt_sparse o) (bl1l2_penalty o) s ds
        (dfm_new (qmt_sparse o)) (BlockL1PlusL2 (p_alpha p) (p_shape p))) p).
Proof.
  split; [intros; apply est_mt_lasso_dense|]. split; [intros; apply est_mt_lasso_sparse|].
  split; [intros; apply est_block_mcp_dense|]. split; [intros; apply est_block_mcp_sparse|].
  split; [intros; apply est_mt_enet_dense|intros; apply est_mt_enet_sparse].
Qed.
Lemma est_verbose {F} (o : FOps F) (srt : list F -> list nat) (p : params F) (b : bool) :
  (forall ds, fit_unchecked (lasso_check_ref o) (lasso_fit_dense o srt) (set_verbose b p) ds
            = fit_unchecked (lasso_check_ref o) (lasso_fit_dense o srt) p ds) /\
  (forall ds, fit_unchecked (mcp_check_ref o) (mcp_fit_sparse o srt) (set_verbose b p) ds
            = fit_unchecked (mcp_check_ref o) (mcp_fit_sparse o srt) p ds) /\
  (forall ds, fit_unchecked (elastic_net_check_ref o) (elastic_net_fit_dense o srt) (set_verbose b p) ds
            = fit_unchecked (elastic_net_check_ref o) (elastic_net_fit_dense o srt) p ds) /\
  (forall ds, fit_unchecked (mt_lasso_check_ref o) (mt_lasso_fit_dense o srt) (set_verbose b p) ds
            = fit_unchecked (mt_lasso_check_ref o) (mt_lasso_fit_dense o srt) p ds) /\
  (forall ds, fit_unchecked (block_mcp_check_ref o) (block_mcp_fit_sparse o srt) (set_verbose b p) ds
            = fit_unchecked (block_mcp_check_ref o) (block_mcp_fit_sparse o srt) p ds) /\
  (forall ds, fit_unchecked (mt_elastic_net_check_ref o) (mt_elastic_net_fit_dense o srt) (set_verbose b p) ds
            = fit_unchecked (mt_elastic_net_check_ref o) (mt_elastic_net_fit_dense o srt) p ds).
Proof.
  destruct (check_verbose o p b) as (H1 & H2 & H3).
  split; [intros; rewrite !est_lasso_dense; apply run_as_verbose; exact H1|].
  split; [intros; rewrite !est_mcp_sparse; apply run_as_verbose; exact H2|].
  split; [intros; rewrite !est_enet_dense; apply run_as_verbose; exact H3|].
  split; [intros; rewrite !est_mt_lasso_dense; apply run_as_verbose; exact H1|].
  split; [intros; rewrite !est_block_mcp_sparse; apply run_as_verbose; exact H1|].
  intros; rewrite !est_mt_enet_dense; apply run_as_verbose; exact H3.
Qed.
Lemma ex_c43 :
  let e a g := Estimator (PyFloat (Fin a)) (PyFloat (Fin g)) (PyInt 50) (PyInt 1000)
                 (PyFloat (Fin 0)) (PyInt 10) true (PyInt 5) true in
  py_mcp_new xops (e (1/2)%R 3%R) = PyRaise ValueErr /\ py_mcp_new xops (e 2%R (-1)%R) = PyRet (e 2%R (-1)%R) /\
  py_elastic_net_new xops (e (1/2)%R 7%R) = PyRet (e (1/2)%R 7%R) /\
  py_elastic_net_new xops (e 2%R (1/2)%R) = PyRaise ValueErr.
Proof.
  intros e. split; [|split; [|split]].
  - apply (py_mcp_rejects xops _ (Fin (1/2))); [reflexivity|]. cbn. apply Rltb_spec. lra.
  - apply (py_mcp_ignores_gamma xops _ (Fin 2) (Fin (-1))); try reflexivity; cbn; apply Rltb_false; lra.
  - apply (py_enet_ignores_ratio xops _ (Fin (1/2)) (Fin 7)); try reflexivity; cbn; apply Rltb_false; lra.
  - apply (py_enet_rejects xops _ (Fin 2)); [reflexivity|]. cbn. apply Rltb_spec. lra.
Qed.
Lemma py_predict_zero {F} (o : FOps F) (x : F) (X : mat F) :
  feq o x (f0 o) = true -> py_predict o (Some [x]) X = PyRaise NotFitted /\ py_predict o None X = PyRaise NotFitted.
Proof. intros H. rewrite py_predict_one, H. split; reflexivity. Qed.
Lemma ex_c44 : feq xops (Fin 0) (f0 xops) = true /\ (2 <= length [Fin 1; Fin 2])%nat.
Proof. split; [apply Reqb_refl|simpl; lia]. Qed.

Lemma first_violation_err {F} (o : FOps F) p (chk : params F -> result (params F) (estimator_error F)) rules :
  first_violation rules (error_of (chk p)) -> (exists P e, In (P, e) rules /\ (P : Prop)) ->
  exists err, chk p = Err err.
Proof.
  intros H (P & e & Hin & HP). assert (G : error_of (chk p) <> None).
  { induction H; [destruct Hin|discriminate|]. destruct Hin as [E|Hin]; [injection E as -> ->; contradiction|auto]. }
  destruct (chk p); [simpl in G; congruence|eauto].
Qed.
Lemma py_zero_panics {F} (o : FOps F) e aa tol zi ze sh K p0 :
  e_alpha e = PyFloat aa -> e_tol e = PyFloat tol -> flt o tol (flit o 0 1) = false ->
  e_max_iter e = PyInt zi -> e_max_epochs e = PyInt ze -> (0 <= zi < 2 ^ 64)%Z -> (0 <= ze < 2 ^ 64)%Z ->
  e_shape e = PyFloat sh ->
  e_K e = PyInt K -> e_p0 e = PyInt p0 -> (0 <= K < 2 ^ 64)%Z -> (0 <= p0 < 2 ^ 64)%Z -> (K = 0 \/ p0 = 0)%Z ->
  forall srt,
  (forall ds, py_fit o (lasso_params_new o) false (lasso_check_ref o) (lasso_fit_dense o srt) e ds
     = PyRaise (RustPanic PUnwrap)) /\
  (forall ds, py_fit o (lasso_params_new o) false (lasso_check_ref o) (lasso_fit_sparse o srt) e ds
     = PyRaise (RustPanic PUnwrap)) /\
  (forall ds, py_fit o (mcp_params_new o) true (mcp_check_ref o) (mcp_fit_dense o srt) e ds
     = PyRaise (RustPanic PUnwrap)) /\
  (forall ds, py_fit o (elastic_net_params_new o) true (elastic_net_check_ref o) (elastic_net_fit_dense o srt) e ds
     = PyRaise (RustPanic PUnwrap)) /\
  (forall X Y, mnr X = mnr Y -> py_fit_mt o mnr (mt_lasso_params_new o) false (mt_lasso_check_ref o) (mt_lasso_fit_dense o srt) e (Dataset X (T2 Y))
     = PyRaise (RustPanic PUnwrap)) /\
  (forall X Y, mnr X = mnr Y -> py_fit_mt o mnr (block_mcp_params_new o) true (block_mcp_check_ref o) (block_mcp_fit_dense o srt) e (Dataset X (T2 Y))
     = PyRaise (RustPanic PUnwrap)) /\
  (forall X Y, mnr X = mnr Y -> py_fit_mt o mnr (mt_elastic_net_params_new o) true (mt_elastic_net_check_ref o) (mt_elastic_net_fit_dense o srt) e (Dataset X (T2 Y))
     = PyRaise (RustPanic PUnwrap)).
Proof.
  intros Ha Ht Htz Hi He Hzi Hze Hs HK Hp HK0 Hp0 Hz srt.
  assert (HV : validate_params o e = PyRet tt).
  { unfold validate_params, check_types. rewrite Ht, Hi, He, HK, Hp. simpl.
    rewrite (proj2 (Z.ltb_ge K 0)), (proj2 (Z.ltb_ge p0 0)), (proj2 (Z.ltb_ge zi 0)), (proj2 (Z.ltb_ge ze 0)) by lia.
    rewrite Htz. reflexivity. }
  assert (HW : forall dflt hs, exists q, wrapper_new o dflt hs e = PyRet q /\
            p_K q = Z.to_nat K /\ p_ws_start_size q = Z.to_nat p0).
  { intros dflt hs. unfold wrapper_new, to_usize, to_f64. rewrite Ha, Ht, Hi, He, HK, Hp, Hs. cbn [pybind].
    assert (HB : forall z, (0 <= z < 2 ^ 64)%Z -> (z <? 0)%Z || (usize_bound <=? z)%Z = false) by (intros z Hzz; rewrite (proj2 (Z.ltb_ge z 0)), (proj2 (Z.leb_gt usize_bound z)) by (unfold usize_bound; lia); reflexivity).
    rewrite !HB by assumption.
    destruct hs; simpl; eexists; split; reflexivity || split; reflexivity. }
  assert (HR : forall q, p_K q = Z.to_nat K -> p_ws_start_size q = Z.to_nat p0 ->
          exists P er, In (P, er) (common_rules o q) /\ (P : Prop)).
  { intros q H1 H2. destruct Hz; [exists (p_K q = 0%nat), (InvalidK (p_K q))|exists (p_ws_start_size q = 0%nat), (InvalidWSSize (p_ws_start_size q))];
    simpl; split; auto; lia. }
  assert (HL : forall q, p_K q = Z.to_nat K -> p_ws_start_size q = Z.to_nat p0 ->
          (exists er, lasso_check_ref o q = Err er) /\ (exists er, mcp_check_ref o q = Err er) /\
          (exists er, elastic_net_check_ref o q = Err er)).
  { intros q H1 H2. destruct (HR q H1 H2) as (P & er & Hin & HP). split; [|split].
    - apply (first_violation_err o q _ _ (proj1 (lasso_check_spec o q))). exists P, er. split; [right|]; auto.
    - apply (first_violation_err o q _ _ (proj1 (mcp_check_spec o q))). exists P, er. split; [right; right|]; auto.
    - apply (first_violation_err o q _ _ (proj1 (enet_check_spec o q))). exists P, er. split; [right; right|]; auto. }
  repeat split;
  match goal with
  | |- forall _, py_fit _ ?d ?h _ _ _ _ = _ => intros ds;
    destruct (HW d h) as (q & Hq & H1 & H2); destruct (HL q H1 H2) as (E1 & E2 & E3);
    apply (py_zero_K_panics o d h _ _ e ds q HV Hq); assumption
  | |- forall _ _, _ -> py_fit_mt _ _ ?d ?h _ _ _ _ = _ => intros X Y HXY;
    destruct (HW d h) as (q & Hq & H1 & H2); destruct (HL q H1 H2) as (E1 & E2 & E3);
    unfold py_fit_mt; rewrite HV; cbn [pybind dtargets design_matrix]; rewrite HXY, Nat.eqb_refl; cbn [negb]; rewrite Hq; cbn [pybind];
    unfold wrapper_fit, fit_unchecked end.
  - destruct E1 as (er & E1). change (mt_lasso_check_ref o q) with (lasso_check_ref o q). rewrite E1. reflexivity.
  - destruct E1 as (er & E1). change (block_mcp_check_ref o q) with (lasso_check_ref o q). rewrite E1. reflexivity.
  - destruct E3 as (er & E3). change (mt_elastic_net_check_ref o q) with (elastic_net_check_ref o q). rewrite E3. reflexivity.
Qed.
Lemma ex_c47 :
  let e := Estimator (PyFloat (Fin 1)) (PyFloat (Fin 1)) (PyInt 50) (PyInt 1000)
                 (PyFloat (Fin 0)) (PyInt 10) true (PyInt 0) true in
  py_lasso_new xops e = PyRet e /\ flt xops (Fin 0) (flit xops 0 1) = false.
Proof.
  intros e. unfold py_lasso_new, e. cbn -[Rltb]. split; rewrite (proj2 (Rltb_false _ _)) by lra; reflexivity.
Qed.
