(** Every entry point of the crate: none reaches the NaN comparison.  Also: when the Python
    [predict] returns, and what. *)
From Coq Require Import List ZArith Bool Arith Lia Reals Lra.
From Verif Require Import Ops Arr MUtils MDatasets MDatafits MDatafitsMT MPenalties MBlockPenalties
  MCd MBcd MHyper MEstimators MPython XR IEEE PBase RSum SpecSolve SpecLin PLaws PDatafit PSortNan PRunsEx.
Import ListNotations.
Local Open Scope nat_scope.

Section Fits.
Context {F : Type} (o : FOps F) (LF : float_laws o) (srt : list F -> list nat).
Let max_ok := law_max0 o LF. Let zero_ok := law_nan0 o LF. Let inf_ok := law_naninf o LF.

Definition pens_clean {P} (pen : Penalty F P) : Prop :=
  (forall p w g ws, clean (pen_subdiff_distance pen p w g ws)) /\
  (forall p w g n kkt m, pen_subdiff_distance pen p w g (seq 0 n) = Ret (kkt, m) -> nan_only_active o (active1 o w) kkt).
Definition bpens_clean {P} (pen : PenaltyMT F P) : Prop :=
  (forall p w g ws, clean (bpen_subdiff_distance pen p w g ws)) /\
  (forall p W g n kkt m, mnr W = n -> bpen_subdiff_distance pen p W g (seq 0 n) = Ret (kkt, m) -> nan_only_active o (activeT o W) kkt).
Lemma pc_l1 : pens_clean (l1_penalty o).
Proof. split; intros; [apply cl_scores|]. eapply scores_nan; [|exact H]. intros. apply l1_nan; auto. Qed.
Lemma pc_l1l2 : pens_clean (l1l2_penalty o).
Proof. split; intros; [apply cl_scores|]. eapply scores_nan; [|exact H]. intros. apply l1l2_nan; auto. Qed.
Lemma pc_mcp : pens_clean (mcp_penalty o).
Proof. split; intros; [apply cl_scores|]. eapply scores_nan; [|exact H]. intros. apply mcp_nan; auto. Qed.
Lemma pc_l05 : pens_clean (l05_penalty o).
Proof. split; intros; [discriminate|]. exact (l05_nan o zero_ok p w g n kkt m H). Qed.
Lemma pc_l21 : bpens_clean (l21_penalty o).
Proof. split; intros; [apply cl_bscores|]. eapply bscores_nan; [|exact H|exact H0]. intros. apply l21_nan; auto. Qed.
Lemma pc_bl1l2 : bpens_clean (bl1l2_penalty o).
Proof. split; intros; [apply cl_bscores|]. eapply bscores_nan; [|exact H|exact H0]. intros. apply bl1l2_nan; auto. Qed.
Lemma pc_bmcp : bpens_clean (bmcp_penalty o).
Proof. split; intros; [apply cl_bscores|]. eapply bscores_nan; [|exact H|exact H0]. intros. apply bmcp_nan; auto. Qed.

Lemma nc_cd {DM D P} dm df (pen : Penalty F P) (Hdm : clean_dm dm) (Hdf : clean_df df) : pens_clean pen ->
  forall (ds : dataset DM F) (d : D) p s mi me tol K a v, clean (coordinate_descent o dm df pen srt ds d p s mi me tol K a v).
Proof using LF. intros [H1 H2]. exact (cl_cd o dm df pen srt inf_ok Hdm Hdf H1 H2). Qed.
Lemma nc_bcd {DM D P} dm df (pen : PenaltyMT F P) (Hdm : clean_dm dm) (Hdf : clean_dfm df) : bpens_clean pen ->
  forall (ds : dataset DM F) (d : D) p s mi me tol K a v, clean (block_coordinate_descent o dm df pen srt ds d p s mi me tol K a v).
Proof using LF. intros [H1 H2]. exact (cl_bcd o dm df pen srt inf_ok Hdm Hdf H1 H2). Qed.
Lemma nc_fit {DM A} chk (fit : params F -> dataset DM F -> res A) pr ds : (forall q, clean (fit q ds)) -> fit_unchecked chk fit pr ds <> Panic PNaNCmp.
Proof. intros H. unfold fit_unchecked. destruct (chk pr); [|discriminate]. apply clean_bind; [auto|]. intros. apply clean_ret. Qed.

Hint Resolve pc_l1 pc_l1l2 pc_mcp pc_l05 pc_l21 pc_bl1l2 pc_bmcp clean_dense_dm clean_sparse_dm clean_quad_dense clean_quad_sparse
  clean_log_dense clean_log_sparse clean_qmt_dense clean_qmt_sparse : core.

Lemma nc_estimators (pr : params F) (dd : dataset (mat F) F) (dc : dataset (csc F) F) :
  (fit_unchecked (lasso_check_ref o) (lasso_fit_dense o srt) pr dd <> Panic PNaNCmp /\
   fit_unchecked (elastic_net_check_ref o) (elastic_net_fit_dense o srt) pr dd <> Panic PNaNCmp /\
   fit_unchecked (mcp_check_ref o) (mcp_fit_dense o srt) pr dd <> Panic PNaNCmp /\
   fit_unchecked (mt_lasso_check_ref o) (mt_lasso_fit_dense o srt) pr dd <> Panic PNaNCmp /\
   fit_unchecked (mt_elastic_net_check_ref o) (mt_elastic_net_fit_dense o srt) pr dd <> Panic PNaNCmp /\
   fit_unchecked (block_mcp_check_ref o) (block_mcp_fit_dense o srt) pr dd <> Panic PNaNCmp) /\
  (fit_unchecked (lasso_check_ref o) (lasso_fit_sparse o srt) pr dc <> Panic PNaNCmp /\
   fit_unchecked (elastic_net_check_ref o) (elastic_net_fit_sparse o srt) pr dc <> Panic PNaNCmp /\
   fit_unchecked (mcp_check_ref o) (mcp_fit_sparse o srt) pr dc <> Panic PNaNCmp /\
   fit_unchecked (mt_lasso_check_ref o) (mt_lasso_fit_sparse o srt) pr dc <> Panic PNaNCmp /\
   fit_unchecked (mt_elastic_net_check_ref o) (mt_elastic_net_fit_sparse o srt) pr dc <> Panic PNaNCmp /\
   fit_unchecked (block_mcp_check_ref o) (block_mcp_fit_sparse o srt) pr dc <> Panic PNaNCmp).
Proof using LF.
  repeat split; apply nc_fit; intros q;
    unfold lasso_fit_dense, elastic_net_fit_dense, mcp_fit_dense, mt_lasso_fit_dense, mt_elastic_net_fit_dense, block_mcp_fit_dense,
      lasso_fit_sparse, elastic_net_fit_sparse, mcp_fit_sparse, mt_lasso_fit_sparse, mt_elastic_net_fit_sparse, block_mcp_fit_sparse;
    first [apply nc_cd|apply nc_bcd]; auto.
Qed.

Lemma nc_solver (s : solver F) (dd : dataset (mat F) F) (dc : dataset (csc F) F) :
  (forall d q, solve o srt (dense_dm o) (quad_dense o) (l1_penalty o) s dd d q <> Panic PNaNCmp) /\
  (forall d q, solve o srt (dense_dm o) (quad_dense o) (l1l2_penalty o) s dd d q <> Panic PNaNCmp) /\
  (forall d q, solve o srt (dense_dm o) (quad_dense o) (mcp_penalty o) s dd d q <> Panic PNaNCmp) /\
  (forall d q, solve o srt (dense_dm o) (quad_dense o) (l05_penalty o) s dd d q <> Panic PNaNCmp) /\
  (forall d q, solve o srt (dense_dm o) (log_dense o) (l1_penalty o) s dd d q <> Panic PNaNCmp) /\
  (forall d q, solve o srt (dense_dm o) (log_dense o) (l1l2_penalty o) s dd d q <> Panic PNaNCmp) /\
  (forall d q, solve o srt (dense_dm o) (log_dense o) (mcp_penalty o) s dd d q <> Panic PNaNCmp) /\
  (forall d q, solve o srt (dense_dm o) (log_dense o) (l05_penalty o) s dd d q <> Panic PNaNCmp) /\
  (forall d q, solve o srt (sparse_dm o) (quad_sparse o) (l1_penalty o) s dc d q <> Panic PNaNCmp) /\
  (forall d q, solve o srt (sparse_dm o) (quad_sparse o) (l1l2_penalty o) s dc d q <> Panic PNaNCmp) /\
  (forall d q, solve o srt (sparse_dm o) (quad_sparse o) (mcp_penalty o) s dc d q <> Panic PNaNCmp) /\
  (forall d q, solve o srt (sparse_dm o) (quad_sparse o) (l05_penalty o) s dc d q <> Panic PNaNCmp) /\
  (forall d q, solve o srt (sparse_dm o) (log_sparse o) (l1_penalty o) s dc d q <> Panic PNaNCmp) /\
  (forall d q, solve o srt (sparse_dm o) (log_sparse o) (l1l2_penalty o) s dc d q <> Panic PNaNCmp) /\
  (forall d q, solve o srt (sparse_dm o) (log_sparse o) (mcp_penalty o) s dc d q <> Panic PNaNCmp) /\
  (forall d q, solve o srt (sparse_dm o) (log_sparse o) (l05_penalty o) s dc d q <> Panic PNaNCmp).
Proof using LF. repeat split; intros d q; unfold solve; apply nc_cd; auto. Qed.
Lemma nc_solver_mt (s : solver F) (dd : dataset (mat F) F) (dc : dataset (csc F) F) :
  (forall d q, solve_multi_task o srt (dense_dm o) (qmt_dense o) (l21_penalty o) s dd d q <> Panic PNaNCmp) /\
  (forall d q, solve_multi_task o srt (dense_dm o) (qmt_dense o) (bl1l2_penalty o) s dd d q <> Panic PNaNCmp) /\
  (forall d q, solve_multi_task o srt (dense_dm o) (qmt_dense o) (bmcp_penalty o) s dd d q <> Panic PNaNCmp) /\
  (forall d q, solve_multi_task o srt (sparse_dm o) (qmt_sparse o) (l21_penalty o) s dc d q <> Panic PNaNCmp) /\
  (forall d q, solve_multi_task o srt (sparse_dm o) (qmt_sparse o) (bl1l2_penalty o) s dc d q <> Panic PNaNCmp) /\
  (forall d q, solve_multi_task o srt (sparse_dm o) (qmt_sparse o) (bmcp_penalty o) s dc d q <> Panic PNaNCmp).
Proof using LF. repeat split; intros d q; unfold solve_multi_task; apply nc_bcd; auto. Qed.
End Fits.

(** *** example: the panic exists, and there are fits on data with a NaN that return *)
Definition nan64 : f64 := fdiv ops64 (f0 ops64) (f0 ops64).
Definition nX : mat f64 := Mat 3 2 [[f64_of 1; nan64]; [f64_of 0; f64_of 1]; [f64_of 3; f64_of (-1)]].
Definition npr : params f64 := Params (f1 ops64) (f0 ops64) 2 25 10 (flit ops64 1 1000000) 2 true false.
Lemma ex_nan_panic : fisnan ops64 nan64 = true /\ argsort_desc ops64 srt64 [nan64; f64_of 1] = Panic PNaNCmp.
Proof. vm_compute. auto. Qed.
Lemma ex_nan_returns : match fit_unchecked (lasso_check_ref ops64) (lasso_fit_dense ops64 srt64) npr (Dataset nX ry) with
  | Ret (Ok [a; b]) => negb (feq ops64 a (f0 ops64)) && feq ops64 b (f0 ops64) | _ => false end = true.
Proof. vm_compute. reflexivity. Qed.

Lemma sort_panics_iff {F} (o : FOps F) srt l : argsort_desc o srt l = Panic PNaNCmp <-> 2 <= length l /\ exists x, In x l /\ fisnan o x = true.
Proof.
  unfold argsort_desc. destruct (Nat.leb_spec 2 (length l)) as [H|H]; cbn [andb].
  - destruct (existsb (fisnan o) l) eqn:E.
    + apply existsb_exists in E. tauto.
    + split; [discriminate|]. intros [_ Hx]. apply existsb_exists in Hx. congruence.
  - split; [discriminate|]. intros [Hl _]. lia.
Qed.

(** *** predict *)
Lemma py_predict_iff {F} (o : FOps F) c X v : py_predict o (Some c) X = PyRet v <->
  exists x, c = [x] /\ feq o x (f0 o) = false /\ mnc X = 1 /\ v = map (fun row => ndot o row [x]) (mrows X).
Proof.
  unfold py_predict. destruct c as [|x [|y c]]; cbn [np_truth pybind].
  - split; [discriminate|]. intros (x & E & _). discriminate.
  - destruct (feq o x (f0 o)) eqn:Ex; cbn [negb pybind length].
    + split; [discriminate|]. intros (x' & E & Hx & _). injection E as <-. congruence.
    + destruct (mnc X =? 1) eqn:En.
      * apply Nat.eqb_eq in En. split.
        -- intros E. injection E as <-. exists x. auto.
        -- intros (x' & E & _ & _ & ->). injection E as <-. reflexivity.
      * apply Nat.eqb_neq in En. split; [discriminate|]. intros (x' & _ & _ & E & _). contradiction.
  - split; [discriminate|]. intros (x' & E & _). discriminate.
Qed.
Open Scope R_scope.
Lemma Reqb_ne (x : R) : x <> 0 -> Reqb x 0 = false.
Proof. intros H. unfold Reqb. destruct (Req_EM_T x 0); [contradiction|reflexivity]. Qed.
Lemma py_predict_value n X (x : R) : x <> 0 -> py_predict xops (Some [Fin x]) (xm n 1 X) = PyRet (xv n (fun i => X i 0%nat * x)).
Proof.
  intros Hx. apply py_predict_iff. exists (Fin x). split; [reflexivity|]. split; [exact (Reqb_ne x Hx)|].
  split; [reflexivity|]. unfold xm, tabm, xv. cbn [mrows]. rewrite map_tab. apply tab_ext. intros i Hi. cbn. f_equal; ring.
Qed.
Lemma py_predict_mt_iff {F} (o : FOps F) W X V : py_predict_mt o (Some W) X = PyRet V <->
  exists x, concat (mrows W) = [x] /\ feq o x (f0 o) = false /\ mnc X = mnr W /\
    V = Mat (mnr X) (mnc W) (map (fun row => map (fun t => ndot o row (map (fun r => nth t r (f0 o)) (mrows W))) (seq 0 (mnc W))) (mrows X)).
Proof.
  unfold py_predict_mt, np_truth2. destruct (concat (mrows W)) as [|x [|y c]]; cbn [np_truth pybind].
  - split; [discriminate|]. intros (x & E & _). discriminate.
  - destruct (feq o x (f0 o)) eqn:Ex; cbn [negb].
    + split; [discriminate|]. intros (x' & E & Hx & _). injection E as <-. congruence.
    + destruct (mnc X =? mnr W)%nat eqn:En.
      * apply Nat.eqb_eq in En. split.
        -- intros E. injection E as <-. exists x. auto.
        -- intros (x' & _ & _ & _ & ->). reflexivity.
      * apply Nat.eqb_neq in En. split; [discriminate|]. intros (x' & _ & _ & E & _). contradiction.
  - split; [discriminate|]. intros (x' & E & _). discriminate.
Qed.
Lemma py_predict_mt_value n X (x : R) : x <> 0 ->
  py_predict_mt xops (Some (xm 1 1 (fun _ _ => x))) (xm n 1 X) = PyRet (xm n 1 (fun i _ => X i 0%nat * x)).
Proof.
  intros Hx. apply py_predict_mt_iff. exists (Fin x). split; [reflexivity|]. split; [exact (Reqb_ne x Hx)|]. split; [reflexivity|].
  unfold xm, tabm. cbn [mrows mnr mnc]. f_equal. rewrite map_tab. apply tab_ext. intros i Hi. cbn. do 2 f_equal. ring.
Qed.
Lemma two_ne0 : 2 <> 0.
Proof. lra. Qed.
