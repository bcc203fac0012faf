(** Defaults, and the way of the Python attributes to the native fit. *)
From Coq Require Import List ZArith Bool Arith Reals Lia Lra.
From Verif Require Import Ops Arr MUtils MDatasets MHyper MEstimators MPython XR SpecParams SpecHyper.
Import ListNotations.

Lemma defaults_hold :
  Forall (fun pr => has_defaults pr /\ p_alpha pr = Fin 1)
    [lasso_params_new xops; mt_lasso_params_new xops; mcp_params_new xops; block_mcp_params_new xops; elastic_net_params_new xops; mt_elastic_net_params_new xops] /\
  Forall (fun pr => p_shape pr = Fin 3) [mcp_params_new xops; block_mcp_params_new xops] /\ solver_has_defaults (solver_default xops).
Proof.
  assert (E6 : flit xops 1 1000000 = Fin (1 / 1000000)) by reflexivity. assert (E8 : flit xops 1 100000000 = Fin (1 / 100000000)) by reflexivity.
  assert (E3 : flit xops 3 1 = Fin 3) by (change (Fin (3 / 1) = Fin 3); apply f_equal; lra).
  split; [|split].
  - repeat constructor; cbn [p_tolerance lasso_params_new mt_lasso_params_new mcp_params_new block_mcp_params_new elastic_net_params_new mt_elastic_net_params_new]; assumption.
  - repeat constructor; exact E3.
  - repeat constructor; exact E8.
Qed.
Lemma l1_ratio_default : Forall (fun cp => p_shape (snd cp) = Fin (1/2) /\ fst cp (set_shape (Fin 3) (snd cp)) = Err (InvalidL1Ratio (Fin 3)))
  [(elastic_net_check_ref xops, elastic_net_params_new xops); (mt_elastic_net_check_ref xops, mt_elastic_net_params_new xops)].
Proof.
  assert (E : elastic_net_check_ref xops (set_shape (Fin 3) (elastic_net_params_new xops)) = Err (InvalidL1Ratio (Fin 3))).
  { unfold elastic_net_check_ref, set_shape. cbn [p_alpha p_shape p_tolerance elastic_net_params_new fisneg f1 f0 flt xops xisneg xlt].
    rewrite (proj2 (Rltb_false 1 0)), (proj2 (Rltb_spec 1 3)) by lra. reflexivity. }
  repeat constructor; exact E.
Qed.

Section Py.
Context {F : Type} (o : FOps F).
Lemma int_ok v k : int_value v k -> check_types o is_pyint v = PyRet tt /\ to_usize v = PyRet k.
Proof.
  intros [k0 Hk|b]; unfold check_types; cbn [is_pyint negb orb py_lt_int to_usize].
  - rewrite (proj2 (Z.ltb_ge _ 0)), (proj2 (Z.leb_gt _ _)) by (unfold usize_bound; lia). rewrite Nat2Z.id. auto.
  - destruct b; auto.
Qed.
Lemma int_only v k : check_types o is_pyint v = PyRet tt -> to_usize v = PyRet k -> int_value v k.
Proof.
  unfold check_types. destruct v as [z|x|b|]; cbn [is_pyint negb orb py_lt_int to_usize]; try discriminate.
  - destruct (Z.ltb_spec z 0); [discriminate|]. destruct (Z.leb_spec usize_bound z); [discriminate|]. cbn [orb]. intros _ E. injection E as <-.
    rewrite <- (Z2Nat.id z) at 1 by lia. constructor. rewrite Z2Nat.id by lia. assumption.
  - intros _ E. injection E as <-. constructor.
Qed.
Lemma float_iff v x : to_f64 o v = PyRet x <-> float_value o v x.
Proof.
  split.
  - destruct v; cbn; intros E; try discriminate; injection E as <-; constructor.
  - intros []; reflexivity.
Qed.
Lemma tol_iff v x : (check_types o is_pyfloat v = PyRet tt /\ to_f64 o v = PyRet x) <-> (v = PyFloat x /\ flt o x (flit o 0 1) = false).
Proof.
  unfold check_types. split.
  - intros [H1 H2]. destruct v as [z|y|b|]; cbn [is_pyfloat negb orb py_lt_int to_f64] in *; try discriminate. injection H2 as ->.
    split; auto. destruct (flt o x (flit o 0 1)); [discriminate|auto].
  - intros [-> E]. cbn [is_pyfloat negb orb py_lt_int to_f64]. rewrite E. auto.
Qed.
Lemma pybind_ret {A B} (m : pyres A) (k : A -> pyres B) b : pybind m k = PyRet b -> exists a, m = PyRet a /\ k a = PyRet b.
Proof. destruct m; cbn; [eauto|discriminate]. Qed.
Lemma described dflt hs e pr : validate_params o e = PyRet tt -> wrapper_new o dflt hs e = PyRet pr -> describes o dflt hs e pr.
Proof.
  unfold validate_params, wrapper_new. intros HV HW.
  apply pybind_ret in HV as ([] & V1 & HV). apply pybind_ret in HV as ([] & V2 & HV). apply pybind_ret in HV as ([] & V3 & HV). apply pybind_ret in HV as ([] & V4 & V5).
  apply pybind_ret in HW as (a & W1 & HW). apply pybind_ret in HW as (s & W2 & HW). apply pybind_ret in HW as (mi & W3 & HW). apply pybind_ret in HW as (me & W4 & HW).
  apply pybind_ret in HW as (tol & W5 & HW). apply pybind_ret in HW as (p0 & W6 & HW). apply pybind_ret in HW as (K & W7 & HW). injection HW as <-.
  destruct (proj1 (tol_iff _ _) (conj V3 W5)) as [T1' T2'].
  unfold describes. cbn. repeat split; auto; try (apply float_iff; assumption); try (apply int_only; assumption).
  destruct hs; [apply float_iff; assumption|]. injection W2 as ->. reflexivity.
Qed.
Lemma describing dflt hs e pr : describes o dflt hs e pr -> validate_params o e = PyRet tt /\ wrapper_new o dflt hs e = PyRet pr.
Proof.
  intros (D1 & D2 & D3 & D4 & D5 & D6 & D7 & D8 & D9 & D10).
  apply int_ok in D3 as [A3 B3]. apply int_ok in D4 as [A4 B4]. apply int_ok in D5 as [A5 B5]. apply int_ok in D8 as [A8 B8]. apply float_iff in D1.
  destruct (proj2 (tol_iff _ _) (conj D6 D7)) as [A6 B6].
  split; [unfold validate_params; rewrite A3, A4, A5, A6, A8; reflexivity|].
  unfold wrapper_new. rewrite D1, B3, B4, B5, B6, B8. cbn [pybind]. destruct pr as [a s mi me ws tol K acc vb]. cbn [p_alpha p_shape p_max_iterations p_max_epochs p_ws_start_size p_tolerance p_K p_use_acceleration p_verbose] in *.
  subst acc vb. destruct hs.
  - apply float_iff in D2. rewrite D2. reflexivity.
  - subst s. reflexivity.
Qed.
Lemma wrapper_fit_ret {DM A} chk (fit : params F -> dataset DM F -> res A) pr ds c : wrapper_fit chk fit pr ds = PyRet c <-> fit_unchecked chk fit pr ds = Ret (Ok c).
Proof. unfold wrapper_fit. destruct (fit_unchecked chk fit pr ds) as [[c'|e]|k]; split; intros E; try discriminate; injection E as ->; reflexivity. Qed.
Lemma py_fit_native {DM A} dflt hs chk (fit : params F -> dataset DM F -> res A) e ds c :
  py_fit o dflt hs chk fit e ds = PyRet c <-> exists pr, describes o dflt hs e pr /\ fit_unchecked chk fit pr ds = Ret (Ok c).
Proof.
  unfold py_fit. split.
  - intros H. apply pybind_ret in H as ([] & V & H). apply pybind_ret in H as (pr & W & H). exists pr. split; [apply described; auto|]. apply wrapper_fit_ret; auto.
  - intros (pr & D & H). apply describing in D as [-> V]. cbn [pybind]. rewrite V. cbn [pybind]. apply wrapper_fit_ret; auto.
Qed.
Lemma py_fit_mt_native {DM A} rows dflt hs chk (fit : params F -> dataset DM F -> res A) e X t c :
  py_fit_mt o rows dflt hs chk fit e (Dataset X t) = PyRet c <->
  exists Y pr, t = T2 Y /\ rows X = mnr Y /\ describes o dflt hs e pr /\ fit_unchecked chk fit pr (Dataset X t) = Ret (Ok c).
Proof.
  unfold py_fit_mt. cbn [dtargets design_matrix]. split.
  - intros H. apply pybind_ret in H as ([] & V & H). destruct t as [y|Y]; [discriminate|]. destruct (Nat.eqb_spec (rows X) (mnr Y)) as [E|E]; cbn [negb] in H; [|discriminate].
    apply pybind_ret in H as (pr & W & H). exists Y, pr. split; [reflexivity|]. split; [exact E|]. split; [apply described; auto|]. apply wrapper_fit_ret; auto.
  - intros (Y & pr & -> & E & D & H). apply describing in D as [-> V]. cbn [pybind]. rewrite (proj2 (Nat.eqb_eq _ _) E). cbn [negb]. rewrite V. cbn [pybind]. apply wrapper_fit_ret; auto.
Qed.
(** whatever the attributes, bad shapes are refused with [ValueError] before the native code runs *)
Lemma py_fit_mt_shape {DM A} rows dflt hs chk (fit : params F -> dataset DM F -> res A) e X t :
  (forall Y, t = T2 Y -> rows X <> mnr Y) -> py_fit_mt o rows dflt hs chk fit e (Dataset X t) = PyRaise ValueErr.
Proof.
  intros H. unfold py_fit_mt. cbn [dtargets design_matrix].
  assert (Q : validate_params o e = PyRet tt \/ validate_params o e = PyRaise ValueErr).
  { unfold validate_params, check_types. repeat match goal with |- context[if ?b then _ else _] => destruct b; cbn [pybind] end; auto. }
  destruct Q as [->| ->]; cbn [pybind]; [|reflexivity]. destruct t as [y|Y]; [reflexivity|]. rewrite (proj2 (Nat.eqb_neq _ _) (H Y eq_refl)). reflexivity.
Qed.
Lemma nonneg_dec v : (nonneg_float o v /\ negb (is_pyfloat v) || py_lt_int o v 0 = false) \/ (~ nonneg_float o v /\ negb (is_pyfloat v) || py_lt_int o v 0 = true).
Proof.
  unfold nonneg_float. destruct v as [z|x|b|]; cbn [is_pyfloat negb orb py_lt_int]; try (right; split; [intros (y & E & _); discriminate|reflexivity]).
  destruct (flt o x (flit o 0 1)) eqn:E; [right|left]; split; auto; [intros (y & E' & H); injection E' as <-; congruence|eauto].
Qed.
Lemma count_dec (v : pyval F) : (count_value v /\ check_types o is_pyint v = PyRet tt) \/ (~ count_value v /\ check_types o is_pyint v = PyRaise ValueErr).
Proof.
  unfold count_value, check_types. destruct v as [z|x|b|]; cbn [is_pyint negb orb py_lt_int].
  - destruct (Z.ltb_spec z 0); [right|left]; split; auto; [intros [(y & E & H')|(b & E)]; [injection E as <-; lia|discriminate]|left; eauto].
  - right. split; auto. intros [(y & E & _)|(b & E)]; discriminate.
  - left. split; [eauto|]. destruct b; reflexivity.
  - right. split; auto. intros [(y & E & _)|(b & E)]; discriminate.
Qed.
Lemma tol_dec v : (nonneg_float o v /\ check_types o is_pyfloat v = PyRet tt) \/ (~ nonneg_float o v /\ check_types o is_pyfloat v = PyRaise ValueErr).
Proof. unfold check_types. destruct (nonneg_dec v) as [[H ->]|[H ->]]; auto. Qed.
Lemma validate_iff e : (valid_settings o e /\ validate_params o e = PyRet tt) \/ (~ valid_settings o e /\ validate_params o e = PyRaise ValueErr).
Proof.
  unfold valid_settings, validate_params. destruct (count_dec (e_K e)) as [[H1 ->]|[H1 ->]]; cbn [pybind]; [|right; split; [tauto|reflexivity]].
  destruct (count_dec (e_p0 e)) as [[H2 ->]|[H2 ->]]; cbn [pybind]; [|right; split; [tauto|reflexivity]].
  destruct (tol_dec (e_tol e)) as [[H3 ->]|[H3 ->]]; cbn [pybind]; [|right; split; [tauto|reflexivity]].
  destruct (count_dec (e_max_iter e)) as [[H4 ->]|[H4 ->]]; cbn [pybind]; [|right; split; [tauto|reflexivity]].
  destruct (count_dec (e_max_epochs e)) as [[H5 ->]|[H5 ->]]; [left|right]; (split; [tauto|reflexivity]).
Qed.
Lemma to_usize_err (v : pyval F) x : to_usize v = PyRaise x -> x = OverflowErr \/ x = TypeErr.
Proof. destruct v; cbn [to_usize]; try discriminate; try (destruct (_ || _); try discriminate); intros E; injection E as <-; auto. Qed.
Lemma to_f64_err v x : to_f64 o v = PyRaise x -> x = TypeErr.
Proof. destruct v; cbn [to_f64]; congruence. Qed.
Lemma pybind_err {A B} (m : pyres A) (k : A -> pyres B) x : pybind m k = PyRaise x -> m = PyRaise x \/ exists a, m = PyRet a /\ k a = PyRaise x.
Proof. destruct m; cbn; intros H; [right|left; congruence]. eexists. split; [reflexivity|exact H]. Qed.
Lemma wrapper_err dflt hs e x : wrapper_new o dflt hs e = PyRaise x -> x = OverflowErr \/ x = TypeErr.
Proof.
  unfold wrapper_new. intros H.
  repeat (apply pybind_err in H as [H|(? & ? & H)]; [first [apply to_usize_err in H; exact H|apply to_f64_err in H; auto|destruct hs; [apply to_f64_err in H; auto|discriminate]]|]). discriminate.
Qed.
(** [fit] raises [ValueError] exactly for the attributes the validation refuses *)
Lemma py_fit_value_error {DM A} dflt hs chk (fit : params F -> dataset DM F -> res A) e ds :
  py_fit o dflt hs chk fit e ds = PyRaise ValueErr <-> ~ valid_settings o e.
Proof.
  unfold py_fit. destruct (validate_iff e) as [[H ->]|[H ->]]; cbn [pybind]; [|tauto]. split; [|tauto]. intros E. exfalso.
  apply pybind_err in E as [E|(pr & _ & E)]; [apply wrapper_err in E as [E|E]; discriminate|]. unfold wrapper_fit in E. destruct (fit_unchecked chk fit pr ds) as [[c|e']|k]; discriminate.
Qed.
Lemma py_fit_mt_value_error {DM A} rows dflt hs chk (fit : params F -> dataset DM F -> res A) e X t :
  py_fit_mt o rows dflt hs chk fit e (Dataset X t) = PyRaise ValueErr <-> ~ valid_settings o e \/ forall Y, t = T2 Y -> rows X <> mnr Y.
Proof.
  unfold py_fit_mt. cbn [dtargets design_matrix]. destruct (validate_iff e) as [[H ->]|[H ->]]; cbn [pybind]; [|tauto].
  destruct t as [y|Y]; [split; auto; intros _; right; discriminate|]. destruct (Nat.eqb_spec (rows X) (mnr Y)) as [E|E]; cbn [negb]; [|split; auto; intros _; right; intros Y' [= <-]; auto].
  split; [|intros [Q|Q]; [tauto|exfalso; apply (Q Y); auto]]. intros E'. exfalso.
  apply pybind_err in E' as [E'|(pr & _ & E')]; [apply wrapper_err in E' as [E'|E']; discriminate|]. unfold wrapper_fit in E'. destruct (fit_unchecked chk fit pr _) as [[c|e']|k]; discriminate.
Qed.
(** the constructors *)
Lemma py_lasso_iff e : refuses_unless (py_lasso_new o) e (nonneg_float o (e_alpha e)).
Proof. unfold refuses_unless, py_lasso_new. destruct (nonneg_dec (e_alpha e)) as [[H ->]|[H ->]]; auto. Qed.
Lemma shape_dec (e : estimator F) : (shape_is_float e /\ is_pyfloat (e_shape e) = true) \/ (~ shape_is_float e /\ is_pyfloat (e_shape e) = false).
Proof. unfold shape_is_float. destruct (e_shape e); cbn; [right|left|right|right]; split; auto; try (intros (y & E); discriminate); eauto. Qed.
Lemma py_mcp_iff e : refuses_unless (py_mcp_new o) e (nonneg_float o (e_alpha e) /\ shape_is_float e /\ forall a, e_alpha e = PyFloat a -> flt o a (flit o 1 1) = false).
Proof.
  unfold refuses_unless, py_mcp_new. destruct (nonneg_dec (e_alpha e)) as [[H ->]|[H ->]]; [|right; split; [tauto|reflexivity]].
  destruct (shape_dec e) as [[H2 ->]|[H2 ->]]; cbn [negb orb]; [|right; split; [tauto|reflexivity]]. destruct H as (a & Ea & Ha). rewrite Ea. cbn [py_lt_int].
  destruct (flt o a (flit o 1 1)) eqn:E; [right|left]; split; auto; [intros (_ & _ & Q); rewrite (Q a eq_refl) in E; discriminate|].
  split; [exists a; auto|]. split; auto. intros a' [= <-]. auto.
Qed.
Lemma py_enet_iff e : refuses_unless (py_elastic_net_new o) e (nonneg_float o (e_alpha e) /\ shape_is_float e /\ forall a, e_alpha e = PyFloat a -> flt o (flit o 1 1) a = false).
Proof.
  unfold refuses_unless, py_elastic_net_new. destruct (nonneg_dec (e_alpha e)) as [[H ->]|[H ->]]; [|right; split; [tauto|reflexivity]].
  destruct (shape_dec e) as [[H2 ->]|[H2 ->]]; cbn [negb orb]; [|right; split; [tauto|reflexivity]]. destruct H as (a & Ea & Ha). rewrite Ea. cbn [py_lt_int py_gt_int]. rewrite Ha. cbn [orb].
  destruct (flt o (flit o 1 1) a) eqn:E; [right|left]; split; auto; [intros (_ & _ & Q); rewrite (Q a eq_refl) in E; discriminate|].
  split; [exists a; auto|]. split; auto. intros a' [= <-]. auto.
Qed.
(** objects that were constructed never reach the type error of the wrapper *)
Lemma py_never_type_error {DM A} dflt hs chk (fit : params F -> dataset DM F -> res A) e ds : nonneg_float o (e_alpha e) -> (hs = true -> shape_is_float e) -> py_fit o dflt hs chk fit e ds <> PyRaise TypeErr.
Proof.
  intros (a & Ea & _) Hs. unfold py_fit. destruct (validate_iff e) as [[(H1 & H2 & (t & Et & _) & H4 & H5) ->]|[H ->]]; cbn [pybind]; [|discriminate].
  assert (U : forall v : pyval F, count_value v -> to_usize v <> PyRaise TypeErr) by (intros v [(z & -> & _)|(b & ->)]; cbn [to_usize]; [destruct (_ || _)|]; discriminate).
  intros E. apply pybind_err in E as [E|(pr & _ & E)]; [|unfold wrapper_fit in E; destruct (fit_unchecked chk fit pr ds) as [[c|e']|k]; discriminate].
  unfold wrapper_new in E. rewrite Ea in E. cbn [to_f64 pybind] in E. apply pybind_err in E as [E|(s & _ & E)].
  { destruct hs; [|discriminate]. destruct (Hs eq_refl) as (x & Ex). rewrite Ex in E. discriminate. }
  rewrite Et in E. repeat (apply pybind_err in E as [E|(? & _ & E)]; [first [discriminate|eapply U; [|exact E]; assumption]|]). discriminate.
Qed.
Lemma py_predict_mt_several W X : (2 <= length (concat (mrows W)))%nat -> py_predict_mt o (Some W) X = PyRaise ValueErr.
Proof. intros H. unfold py_predict_mt, np_truth2. destruct (concat (mrows W)) as [|a [|b l]]; cbn in H; try lia. reflexivity. Qed.
End Py.
Lemma py_constructors {F} (o : FOps F) (e : estimator F) :
  let alpha_ok := nonneg_float o (e_alpha e) in
  refuses_unless (py_lasso_new o) e alpha_ok /\ refuses_unless (py_mt_lasso_new o) e alpha_ok /\
  (forall new, In new [py_mcp_new o; py_block_mcp_new o] ->
     refuses_unless new e (alpha_ok /\ shape_is_float e /\ forall a, e_alpha e = PyFloat a -> flt o a (flit o 1 1) = false)) /\
  (forall new, In new [py_elastic_net_new o; py_mt_elastic_net_new o] ->
     refuses_unless new e (alpha_ok /\ shape_is_float e /\ forall a, e_alpha e = PyFloat a -> flt o (flit o 1 1) a = false)).
Proof.
  intros q. split; [apply py_lasso_iff|]. split; [apply py_lasso_iff|]. split; intros new [<-|[<-|[]]]; first [apply py_mcp_iff|apply py_enet_iff].
Qed.
Lemma settings_examples : let e K p0 tol := Estimator (PyFloat (Fin 1)) (PyFloat (Fin 1)) (PyInt 50) (PyInt 1000) tol (PyInt p0) true K true in
  valid_settings xops (e (PyInt 5) 10%Z (PyFloat (Fin 0))) /\ valid_settings xops (e (PyBool true) 10%Z (PyFloat (Fin 0))) /\
  ~ valid_settings xops (e (PyFloat (Fin 5)) 10%Z (PyFloat (Fin 0))) /\ ~ valid_settings xops (e (PyInt 5) (-1)%Z (PyFloat (Fin 0))) /\ ~ valid_settings xops (e (PyInt 5) 10%Z (PyInt 0)) /\
  refuses_unless (py_lasso_new xops) (e (PyInt 5) 10%Z (PyFloat (Fin 0))) (nonneg_float xops (PyFloat (Fin 1))).
Proof.
  assert (C : forall z, (0 <= z)%Z -> @count_value xr (PyInt z)) by (intros z H; left; eauto).
  assert (T : nonneg_float xops (PyFloat (Fin 0))) by (exists (Fin 0); split; auto; cbn; unfold Rltb, xlit; cbn; destruct (Rlt_dec 0 (0 / 1)); auto; exfalso; lra).
  cbv zeta. unfold valid_settings. cbn [e_K e_p0 e_tol e_max_iter e_max_epochs].
  split; [repeat split; auto; apply C; lia|]. split; [repeat split; auto; try (apply C; lia); right; eauto|].
  split; [intros ([(z & E & _)|(b & E)] & _); discriminate|]. split; [intros (_ & [(z & E & H)|(b & E)] & _); [injection E as <-; lia|discriminate]|].
  split; [intros (_ & _ & (x & E & _) & _); discriminate|]. apply (py_lasso_iff xops (Estimator (PyFloat (Fin 1)) (PyFloat (Fin 1)) (PyInt 50) (PyInt 1000) (PyFloat (Fin 0)) (PyInt 10) true (PyInt 5) true)).
Qed.
