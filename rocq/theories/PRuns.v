(** Lemmas behind the property theorems on panics, working sets and the L0.5 penalty. *)
From Coq Require Import List ZArith Bool Arith Lia Reals.
From Verif Require Import Ops Arr MUtils MDatasets MDatafits MDatafitsMT MPenalties MBlockPenalties MCd MBcd MHyper MEstimators XR PBase SpecSolve PStruct PShape PNoPanic PLaws PHyper PHyperEx.
Import ListNotations.
Local Open Scope nat_scope.

Section R.
Context {F : Type} (o : FOps F) (LF : float_laws o) (srt : list F -> list nat) (VS : valid_sort o srt).

Lemma total_finishes {DM A} chk (fit : params F -> dataset DM F -> res A) pr ds good :
  (forall q, chk pr = Ok q -> q = pr) -> total (fit pr ds) good -> finishes good (fit_unchecked chk fit pr ds).
Proof.
  intros HQ (w & E & H). unfold fit_unchecked. destruct (chk pr) as [q|e] eqn:Ec.
  - rewrite (HQ q eq_refl). rewrite E. cbn [bind]. eexists. split; [reflexivity|]. auto.
  - eexists. split; [reflexivity|]. exact I.
Qed.
Lemma chk_same pr : (forall q, lasso_check_ref o pr = Ok q -> q = pr) /\ (forall q, mt_lasso_check_ref o pr = Ok q -> q = pr) /\
  (forall q, mcp_check_ref o pr = Ok q -> q = pr) /\ (forall q, block_mcp_check_ref o pr = Ok q -> q = pr) /\
  (forall q, elastic_net_check_ref o pr = Ok q -> q = pr) /\ (forall q, mt_elastic_net_check_ref o pr = Ok q -> q = pr).
Proof.
  pose proof (all_checks_unchanged o pr) as H. rewrite Forall_forall in H.
  repeat split; intros q Hq; match type of Hq with ?c pr = _ => apply (proj1 (H c ltac:(simpl; auto 10)) q Hq) end.
Qed.
Variables (n p : nat).
Lemma c22_dense X t pr : shaped n p X -> target1_wf n t ->
  accel_safe (p_use_acceleration pr) (p_K pr) (Nat.min (p_ws_start_size pr) p) (p_max_epochs pr) ->
  let good := fun w : list F => length w = p in
  finishes good (fit_unchecked (lasso_check_ref o) (lasso_fit_dense o srt) pr (Dataset X t)) /\
  finishes good (fit_unchecked (elastic_net_check_ref o) (elastic_net_fit_dense o srt) pr (Dataset X t)) /\
  finishes good (fit_unchecked (mcp_check_ref o) (mcp_fit_dense o srt) pr (Dataset X t)).
Proof.
  intros HX Ht HA good. destruct (chk_same pr) as (C1 & C2 & C3 & C4 & C5 & C6).
  assert (HD := dense_sh o n p X HX). assert (Hn := target1_ns n t Ht).
  assert (HI := fun d => quad_dense_sh o n p X t d HX Ht).
  split; [|split]; apply total_finishes; auto; eapply cd_total; eauto; simpl; auto; (apply l1_sh || apply l1l2_sh || apply mcp_sh); auto.
Qed.
Lemma c22_sparse X t pr : csc_wf n p X -> target1_wf n t ->
  accel_safe (p_use_acceleration pr) (p_K pr) (Nat.min (p_ws_start_size pr) p) (p_max_epochs pr) ->
  let good := fun w : list F => length w = p in
  finishes good (fit_unchecked (lasso_check_ref o) (lasso_fit_sparse o srt) pr (Dataset X t)) /\
  finishes good (fit_unchecked (elastic_net_check_ref o) (elastic_net_fit_sparse o srt) pr (Dataset X t)) /\
  finishes good (fit_unchecked (mcp_check_ref o) (mcp_fit_sparse o srt) pr (Dataset X t)).
Proof.
  intros HX Ht HA good. destruct (chk_same pr) as (C1 & C2 & C3 & C4 & C5 & C6).
  assert (HD := sparse_sh o n p X HX). assert (Hn := target1_ns n t Ht).
  assert (HI := fun d => quad_sparse_sh o n p X t d HX Ht).
  split; [|split]; apply total_finishes; auto; eapply cd_total; eauto; simpl; auto; (apply l1_sh || apply l1l2_sh || apply mcp_sh); auto.
Qed.
Lemma c22_mt_dense T X t pr : shaped n p X -> target_wf n T t ->
  accel_safe (p_use_acceleration pr) (p_K pr) (Nat.min (p_ws_start_size pr) p * T) (p_max_epochs pr) ->
  let good := fun W : mat F => shaped p T W in
  finishes good (fit_unchecked (mt_lasso_check_ref o) (mt_lasso_fit_dense o srt) pr (Dataset X t)) /\
  finishes good (fit_unchecked (mt_elastic_net_check_ref o) (mt_elastic_net_fit_dense o srt) pr (Dataset X t)) /\
  finishes good (fit_unchecked (block_mcp_check_ref o) (block_mcp_fit_dense o srt) pr (Dataset X t)).
Proof.
  intros HX Ht HA good. destruct (chk_same pr) as (C1 & C2 & C3 & C4 & C5 & C6).
  assert (HD := dense_sh o n p X HX). destruct (target_ns n T t Ht) as (Hn & HT & _).
  assert (HI := fun d => qmt_dense_sh o n p T X t d HX Ht).
  split; [|split]; apply total_finishes; auto; eapply bcd_total; eauto; simpl; auto; (apply l21_sh || apply bl1l2_sh || apply bmcp_sh); auto.
Qed.
Lemma c22_mt_sparse T X t pr : csc_wf n p X -> target_wf n T t ->
  accel_safe (p_use_acceleration pr) (p_K pr) (Nat.min (p_ws_start_size pr) p * T) (p_max_epochs pr) ->
  let good := fun W : mat F => shaped p T W in
  finishes good (fit_unchecked (mt_lasso_check_ref o) (mt_lasso_fit_sparse o srt) pr (Dataset X t)) /\
  finishes good (fit_unchecked (mt_elastic_net_check_ref o) (mt_elastic_net_fit_sparse o srt) pr (Dataset X t)) /\
  finishes good (fit_unchecked (block_mcp_check_ref o) (block_mcp_fit_sparse o srt) pr (Dataset X t)).
Proof.
  intros HX Ht HA good. destruct (chk_same pr) as (C1 & C2 & C3 & C4 & C5 & C6).
  assert (HD := sparse_sh o n p X HX). destruct (target_ns n T t Ht) as (Hn & HT & _).
  assert (HI := fun d => qmt_sparse_sh o n p T X t d HX Ht).
  split; [|split]; apply total_finishes; auto; eapply bcd_total; eauto; simpl; auto; (apply l21_sh || apply bl1l2_sh || apply bmcp_sh); auto.
Qed.
Lemma c22_logistic X c t (s : solver F) : shaped n p X -> csc_wf n p c -> target1_wf n t ->
  accel_safe (s_use_acceleration s) (s_K s) (Nat.min (s_ws_start_size s) p) (s_max_epochs s) ->
  (forall d q, returns_len p (solve o srt (dense_dm o) (log_dense o) (l1_penalty o) s (Dataset X t) d q)) /\
  (forall d q, returns_len p (solve o srt (dense_dm o) (log_dense o) (l1l2_penalty o) s (Dataset X t) d q)) /\
  (forall d q, returns_len p (solve o srt (dense_dm o) (log_dense o) (mcp_penalty o) s (Dataset X t) d q)) /\
  (forall d q, returns_len p (solve o srt (dense_dm o) (log_dense o) (l05_penalty o) s (Dataset X t) d q)) /\
  (forall d q, returns_len p (solve o srt (sparse_dm o) (log_sparse o) (l1_penalty o) s (Dataset c t) d q)) /\
  (forall d q, returns_len p (solve o srt (sparse_dm o) (log_sparse o) (l1l2_penalty o) s (Dataset c t) d q)) /\
  (forall d q, returns_len p (solve o srt (sparse_dm o) (log_sparse o) (mcp_penalty o) s (Dataset c t) d q)) /\
  (forall d q, returns_len p (solve o srt (sparse_dm o) (log_sparse o) (l05_penalty o) s (Dataset c t) d q)) /\
  (forall d q, returns_len p (solve o srt (dense_dm o) (quad_dense o) (l05_penalty o) s (Dataset X t) d q)) /\
  (forall d q, returns_len p (solve o srt (sparse_dm o) (quad_sparse o) (l05_penalty o) s (Dataset c t) d q)).
Proof.
  intros HX Hc Ht HA. assert (HD := dense_sh o n p X HX). assert (HS := sparse_sh o n p c Hc). assert (Hn := target1_ns n t Ht).
  assert (I1 := fun d => log_dense_sh o n p X t d HX Ht). assert (I2 := fun d => log_sparse_sh o n p c t d Hc Ht).
  assert (I3 := fun d => quad_dense_sh o n p X t d HX Ht). assert (I4 := fun d => quad_sparse_sh o n p c t d Hc Ht).
  repeat split; intros d q; unfold returns_len, solve; (eapply cd_total; eauto; simpl; auto; (apply l1_sh || apply l1l2_sh || apply mcp_sh || apply l05_sh); auto).
Qed.

(** C12 *)
Lemma l05_zero {DM D} (dm : DesignMatrix F DM) (df : Datafit F DM D) ds d q ws0 it me tol K acc v :
  dm_sh dm (design_matrix ds) n p -> n_samples (dtargets ds) = n -> total (df_initialize df d ds) (fun d' => df_good df d' ds n p) ->
  fle o (f0 o) tol = true ->
  coordinate_descent o dm df (l05_penalty o) srt ds d q ws0 it me tol K acc v = Ret (repeat (f0 o) p).
Proof.
  intros HD Hn (d' & Ed & G) HT. unfold coordinate_descent. rewrite (sh_nf _ _ _ _ HD), Hn, Ed. cbn [bind].
  destruct it as [|it]; cbn [outer_loop]; [reflexivity|].
  unfold opt_cond_violation, construct_grad. destruct G as (G1 & G2 & G3).
  destruct (t_mapM (fun j => df_gradient_j df d' ds (vzeros o n) j) (fun _ => True) (seq 0 p)) as (g & Eg & _ & HL).
  { intros j Hj. apply in_seq in Hj. apply G3; [apply vzeros_length|lia]. }
  rewrite Eg. cbn [bind pen_subdiff_distance l05_penalty]. unfold l05_subdiff_distance. cbn [bind]. rewrite HT. reflexivity.
Qed.
Lemma c12 X c t (s : solver F) : shaped n p X -> csc_wf n p c -> target1_wf n t -> fle o (f0 o) (s_tolerance s) = true ->
  (forall d q, solve o srt (dense_dm o) (quad_dense o) (l05_penalty o) s (Dataset X t) d q = Ret (repeat (f0 o) p)) /\
  (forall d q, solve o srt (dense_dm o) (log_dense o) (l05_penalty o) s (Dataset X t) d q = Ret (repeat (f0 o) p)) /\
  (forall d q, solve o srt (sparse_dm o) (quad_sparse o) (l05_penalty o) s (Dataset c t) d q = Ret (repeat (f0 o) p)) /\
  (forall d q, solve o srt (sparse_dm o) (log_sparse o) (l05_penalty o) s (Dataset c t) d q = Ret (repeat (f0 o) p)).
Proof.
  intros HX Hc Ht HT. assert (HD := dense_sh o n p X HX). assert (HS := sparse_sh o n p c Hc). assert (Hn := target1_ns n t Ht).
  assert (I1 := fun d => log_dense_sh o n p X t d HX Ht). assert (I2 := fun d => log_sparse_sh o n p c t d Hc Ht).
  assert (I3 := fun d => quad_dense_sh o n p X t d HX Ht). assert (I4 := fun d => quad_sparse_sh o n p c t d Hc Ht).
  repeat split; intros d q; unfold solve; apply l05_zero; auto.
Qed.

(** C21 *)
Local Notation nonzero := (nonzero o).
Lemma nonzero_nzv w j : nonzero w j <-> j < length w /\ nzv o w j = true.
Proof.
  unfold nonzero, nzv. split.
  - intros (x & E & H). split; [apply nth_error_Some; congruence|]. rewrite (nth_error_nth _ _ _ E), H. auto.
  - intros [H1 H2]. exists (nth j w (f0 o)). split; [apply nth_error_nth'; auto|]. apply negb_true_iff. auto.
Qed.
Lemma count_filter_seq (w : list F) : count (nzv o w) (length w) = length (filter (fun x => negb (feq o x (f0 o))) w).
Proof.
  unfold count.
  assert (A : forall l, length (filter (nzv o w) l) = length (filter (fun x => negb (feq o x (f0 o))) (map (fun i => nth i w (f0 o)) l))).
  { induction l as [|a l IH]; simpl; auto. unfold nzv at 1. destruct (negb _); simpl; auto. }
  rewrite A. fold (tab (length w) (fun i => nth i w (f0 o))). rewrite tab_nth. reflexivity.
Qed.
Lemma c21 kkt w ws0 : length kkt = length w -> ws0 <= length w ->
  (forall j s, nth_error kkt j = Some s -> ~ nonzero w j -> fisnan o s = false /\ flt o s (finf o) = true) ->
  exists ws, construct_ws_from_kkt o srt kkt w ws0 = Ret (ws, length ws) /\
    length ws = Nat.max ws0 (Nat.min (2 * length (filter (fun x => negb (feq o x (f0 o))) w)) (length w)) /\
    NoDup ws /\ (forall j, In j ws -> j < length w) /\
    (forall j, nonzero w j -> In j ws) /\
    (forall j k s s', In j ws -> ~ nonzero w j -> k < length w -> ~ In k ws ->
       nth_error kkt j = Some s -> nth_error kkt k = Some s' -> flt o s s' = false).
Proof.
  intros HL H0 HS.
  assert (H1 : forall j, j < length w -> nzv o w j = false -> fisnan o (nth j kkt (f0 o)) = false /\ flt o (nth j kkt (f0 o)) (finf o) = true).
  { intros j Hj E. apply (HS j); [apply nth_error_nth'; lia|]. rewrite nonzero_nzv. intros [_ H]. congruence. }
  rewrite construct_ws_select by auto.
  destruct (select_ok o srt LF (nzv o w) (length w) kkt ws0 VS H0) as (ws & E & (ND & IN) & HLw & HO); [intros; apply H1; auto|].
  exists ws. rewrite count_filter_seq in HLw. split; auto. split; auto. split; auto. split; auto.
  assert (HNZ : forall j, nonzero w j -> In j ws).
  { intros j Hj. apply nonzero_nzv in Hj as [A B].
    apply (select_nonzero o srt LF (nzv o w) (length w) kkt ws0 ws (length ws)); auto; intros; apply H1; auto. }
  split; auto. intros j k s s' Hj Hzj Hk Hnk Es Es'. specialize (HO j k Hj Hk Hnk).
  destruct (nzv o w j) eqn:Ej; [exfalso; apply Hzj, nonzero_nzv; auto|].
  destruct (nzv o w k) eqn:Ek; [exfalso; apply Hnk, HNZ, nonzero_nzv; auto|].
  rewrite (nth_error_nth _ _ _ Es), (nth_error_nth _ _ _ Es') in HO. auto.
Qed.
Local Notation nonzero_row := (nonzero_row o).
Lemma nonzero_nzm W j : shaped p (mnc W) W -> (nonzero_row W j <-> j < p /\ nzm o W j = true).
Proof.
  intros (H1 & _ & [H3 _]). unfold nonzero_row, nzm, any_nonzero. split.
  - intros (r & x & E & Hx & H). split; [assert (j < length (mrows W)) by (apply nth_error_Some; congruence); lia|].
    rewrite (nth_error_nth _ _ _ E). apply existsb_exists. exists x. rewrite H. auto.
  - intros [A B]. apply existsb_exists in B as (x & Hx & H). exists (nth j (mrows W) []), x. split; [apply nth_error_nth'; lia|]. split; auto. apply negb_true_iff. auto.
Qed.
Lemma c21_mt kkt W ws0 : shaped p (mnc W) W -> length kkt = p -> ws0 <= p ->
  (forall j s, nth_error kkt j = Some s -> ~ nonzero_row W j -> fisnan o s = false /\ flt o s (finf o) = true) ->
  exists ws, construct_ws_from_kkt_mt o srt kkt W ws0 = Ret (ws, length ws) /\
    length ws = Nat.max ws0 (Nat.min (2 * length (filter (existsb (fun x => negb (feq o x (f0 o)))) (mrows W))) p) /\
    NoDup ws /\ (forall j, In j ws -> j < p) /\
    (forall j, nonzero_row W j -> In j ws) /\
    (forall j k s s', In j ws -> ~ nonzero_row W j -> k < p -> ~ In k ws ->
       nth_error kkt j = Some s -> nth_error kkt k = Some s' -> flt o s s' = false).
Proof.
  intros HW HL H0 HS. assert (NZ := fun j => nonzero_nzm W j HW).
  assert (H1 : forall j, j < p -> nzm o W j = false -> fisnan o (nth j kkt (f0 o)) = false /\ flt o (nth j kkt (f0 o)) (finf o) = true).
  { intros j Hj E. apply (HS j); [apply nth_error_nth'; lia|]. rewrite NZ. intros [_ H]. congruence. }
  rewrite (construct_ws_mt_select o srt W kkt ws0 p (mnc W)) by auto.
  destruct (select_ok o srt LF (nzm o W) p kkt ws0 VS H0) as (ws & E & (ND & IN) & HLw & HO); [intros; apply H1; auto|].
  assert (HC : count (nzm o W) p = length (filter (existsb (fun x => negb (feq o x (f0 o)))) (mrows W))).
  { destruct HW as (W1 & _ & [W3 _]). unfold count.
    assert (A : forall l, length (filter (nzm o W) l) = length (filter (existsb (fun x => negb (feq o x (f0 o)))) (map (fun i => nth i (mrows W) []) l))).
    { induction l as [|a l IH]; simpl; auto. unfold nzm at 1, any_nonzero. destruct (existsb _ _); simpl; auto. }
    rewrite A. fold (tab p (fun i => nth i (mrows W) [])). rewrite <- W1, <- W3, tab_nth. reflexivity. }
  exists ws. rewrite HC in HLw. split; auto. split; auto. split; auto. split; auto.
  assert (HNZ : forall j, nonzero_row W j -> In j ws).
  { intros j Hj. apply NZ in Hj as [A B].
    apply (select_nonzero o srt LF (nzm o W) p kkt ws0 ws (length ws)); auto; intros; apply H1; auto. }
  split; auto. intros j k s s' Hj Hzj Hk Hnk Es Es'. specialize (HO j k Hj Hk Hnk).
  destruct (nzm o W j) eqn:Ej; [exfalso; apply Hzj, NZ; auto|].
  destruct (nzm o W k) eqn:Ek; [exfalso; apply Hnk, HNZ, NZ; auto|].
  rewrite (nth_error_nth _ _ _ Es), (nth_error_nth _ _ _ Es') in HO. auto.
Qed.
End R.

(** C23: with fewer working-set coefficients than [K], a fit with extrapolation never returns a
    nonzero model *)
Section R23.
Context {F : Type} (o : FOps F) (LF : float_laws o) (srt : list F -> list nat) (VS : valid_sort o srt).
Variables (n p : nat).
Lemma cd_dichotomy {DM D P} (dm : DesignMatrix F DM) (df : Datafit F DM D) (pen : Penalty F P) ds p_ d ws0 it me tol K v :
  dm_sh dm (design_matrix ds) n p -> pen_sh o pen p_ -> n_samples (dtargets ds) = n ->
  total (df_initialize df d ds) (fun d' => df_good df d' ds n p) ->
  Nat.min ws0 p < K -> K <= 10 -> K < me ->
  coordinate_descent o dm df pen srt ds d p_ ws0 it me tol K true v = Ret (repeat (f0 o) p) \/
  coordinate_descent o dm df pen srt ds d p_ ws0 it me tol K true v = Panic POob.
Proof.
  intros HD HP Hn (d' & Ed & G) H1 H2 H3. destruct it as [|it].
  { left. unfold coordinate_descent. rewrite (sh_nf _ _ _ _ HD), Hn, Ed. reflexivity. }
  destruct (t_ocv o df pen n p ds p_ HP d' (vzeros o p) (vzeros o n) (seq 0 p)) as (s & m & E & _); auto;
    try apply vzeros_length; [intros j Hj; apply in_seq in Hj; lia|].
  destruct (fle o m tol) eqn:B.
  - left. unfold coordinate_descent. rewrite (sh_nf _ _ _ _ HD), Hn, Ed. cbn [bind outer_loop]. rewrite E. cbn [bind]. rewrite B. reflexivity.
  - right. eapply cd_panics; eauto; [lia|]. intros s' m' E'. congruence.
Qed.
Lemma bcd_dichotomy {DM D P} T (dm : DesignMatrix F DM) (df : DatafitMT F DM D) (pen : PenaltyMT F P) ds p_ d ws0 it me tol K v :
  dm_sh dm (design_matrix ds) n p -> bpen_sh o T pen p_ -> n_samples (dtargets ds) = n -> n_tasks (dtargets ds) = T ->
  total (dfm_initialize df d ds) (fun d' => dfm_good df d' ds n p T) ->
  Nat.min ws0 p * T < K -> K <= 10 -> K < me ->
  block_coordinate_descent o dm df pen srt ds d p_ ws0 it me tol K true v = Ret (mzeros o p T) \/
  block_coordinate_descent o dm df pen srt ds d p_ ws0 it me tol K true v = Panic POob.
Proof.
  intros HD HP Hn HT (d' & Ed & G) H1 H2 H3. destruct it as [|it].
  { left. unfold block_coordinate_descent. rewrite (sh_nf _ _ _ _ HD), Hn, HT, Ed. reflexivity. }
  destruct (t_ocv_mt o df pen n p T ds p_ HP HT d' (mzeros o p T) (mzeros o n T) (seq 0 p)) as (s & m & E & _); auto;
    try apply mzeros_shaped; [intros j Hj; apply in_seq in Hj; lia|].
  destruct (fle o m tol) eqn:B.
  - left. unfold block_coordinate_descent. rewrite (sh_nf _ _ _ _ HD), Hn, HT, Ed. cbn [bind outer_loop_mt]. rewrite E. cbn [bind]. rewrite B. reflexivity.
  - right. eapply bcd_panics; eauto; [lia|]. intros s' m' E'. congruence.
Qed.
Lemma dich_fit {DM A} chk (fit : params F -> dataset DM F -> res A) pr ds zero :
  (forall q, chk pr = Ok q -> q = pr) -> fit pr ds = Ret zero \/ fit pr ds = Panic POob -> zero_or_oob zero (fit_unchecked chk fit pr ds).
Proof.
  intros HQ H. unfold fit_unchecked, zero_or_oob. destruct (chk pr) as [q|e] eqn:Ec; [|eauto].
  rewrite (HQ q eq_refl). destruct H as [-> | ->]; cbn [bind]; auto.
Qed.
Lemma c23 X c t pr : shaped n p X -> csc_wf n p c -> target1_wf n t -> p_use_acceleration pr = true ->
  Nat.min (p_ws_start_size pr) p < p_K pr -> p_K pr <= 10 -> p_K pr < p_max_epochs pr ->
  let zero := repeat (f0 o) p in
  zero_or_oob zero (fit_unchecked (lasso_check_ref o) (lasso_fit_dense o srt) pr (Dataset X t)) /\
  zero_or_oob zero (fit_unchecked (lasso_check_ref o) (lasso_fit_sparse o srt) pr (Dataset c t)) /\
  zero_or_oob zero (fit_unchecked (elastic_net_check_ref o) (elastic_net_fit_dense o srt) pr (Dataset X t)) /\
  zero_or_oob zero (fit_unchecked (elastic_net_check_ref o) (elastic_net_fit_sparse o srt) pr (Dataset c t)) /\
  zero_or_oob zero (fit_unchecked (mcp_check_ref o) (mcp_fit_dense o srt) pr (Dataset X t)) /\
  zero_or_oob zero (fit_unchecked (mcp_check_ref o) (mcp_fit_sparse o srt) pr (Dataset c t)).
Proof.
  intros HX Hc Ht HA H1 H2 H3 zero. destruct (chk_same o pr) as (C1 & C2 & C3 & C4 & C5 & C6).
  assert (HD := dense_sh o n p X HX). assert (HS := sparse_sh o n p c Hc). assert (Hn := target1_ns n t Ht).
  assert (I3 := fun d => quad_dense_sh o n p X t d HX Ht). assert (I4 := fun d => quad_sparse_sh o n p c t d Hc Ht).
  repeat (match goal with |- _ /\ _ => split end); apply dich_fit; auto;
    unfold lasso_fit_dense, lasso_fit_sparse, elastic_net_fit_dense, elastic_net_fit_sparse, mcp_fit_dense, mcp_fit_sparse; rewrite HA;
    eapply cd_dichotomy; eauto; (apply l1_sh || apply l1l2_sh || apply mcp_sh); auto.
Qed.
Lemma c23_mt T X c t pr : shaped n p X -> csc_wf n p c -> target_wf n T t -> p_use_acceleration pr = true ->
  Nat.min (p_ws_start_size pr) p * T < p_K pr -> p_K pr <= 10 -> p_K pr < p_max_epochs pr ->
  let zero := mfill (f0 o) p T in
  zero_or_oob zero (fit_unchecked (mt_lasso_check_ref o) (mt_lasso_fit_dense o srt) pr (Dataset X t)) /\
  zero_or_oob zero (fit_unchecked (mt_lasso_check_ref o) (mt_lasso_fit_sparse o srt) pr (Dataset c t)) /\
  zero_or_oob zero (fit_unchecked (mt_elastic_net_check_ref o) (mt_elastic_net_fit_dense o srt) pr (Dataset X t)) /\
  zero_or_oob zero (fit_unchecked (mt_elastic_net_check_ref o) (mt_elastic_net_fit_sparse o srt) pr (Dataset c t)) /\
  zero_or_oob zero (fit_unchecked (block_mcp_check_ref o) (block_mcp_fit_dense o srt) pr (Dataset X t)) /\
  zero_or_oob zero (fit_unchecked (block_mcp_check_ref o) (block_mcp_fit_sparse o srt) pr (Dataset c t)).
Proof.
  intros HX Hc Ht HA H1 H2 H3 zero. destruct (chk_same o pr) as (C1 & C2 & C3 & C4 & C5 & C6).
  assert (HD := dense_sh o n p X HX). assert (HS := sparse_sh o n p c Hc). destruct (target_ns n T t Ht) as (Hn & HT & _).
  assert (I3 := fun d => qmt_dense_sh o n p T X t d HX Ht). assert (I4 := fun d => qmt_sparse_sh o n p T c t d Hc Ht).
  repeat (match goal with |- _ /\ _ => split end); apply dich_fit; auto;
    unfold mt_lasso_fit_dense, mt_lasso_fit_sparse, mt_elastic_net_fit_dense, mt_elastic_net_fit_sparse, block_mcp_fit_dense, block_mcp_fit_sparse; rewrite HA;
    eapply bcd_dichotomy; eauto; (apply l21_sh || apply bl1l2_sh || apply bmcp_sh); auto.
Qed.
End R23.
