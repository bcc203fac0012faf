(** Number of selected features and settings without influence: estimators and examples. *)
From Coq Require Import List ZArith Bool Arith Lia Reals Lra.
From Verif Require Import Ops Arr MUtils MDatasets MDatafits MDatafitsMT MPenalties MBlockPenalties MCd MBcd MHyper MEstimators XR IEEE SpecSolve SpecLin SpecOpt SpecSelect PBase PLaws PRuns PRunsEx PSelect PSelectX PInert PStruct PData PLin PRef PRefCD PRefBCD PLimitsEx.
Import ListNotations.
Local Open Scope nat_scope.

Section Any.
Context {F : Type} (o : FOps F) (srt : list F -> list nat).
Lemma capacity_budget ws0 k : capacity ws0 k 0 = budget 3 ws0 k.
Proof using. apply capacity_closed. Qed.
Lemma solve_budget {DM D P} (dm : DesignMatrix F DM) (df : Datafit F DM D) (pen : Penalty F P) s ds d q w : feq o (f0 o) (f0 o) = true ->
  solve o srt dm df pen s ds d q = Ret w -> selected o w <= budget 3 (s_ws_start_size s) (s_max_iterations s).
Proof using. intros E0 E. rewrite <- capacity_budget. exact (cd_count o dm df pen srt E0 ds d q _ _ _ _ _ _ _ w E). Qed.
Lemma solve_budget_mt {DM D P} (dm : DesignMatrix F DM) (df : DatafitMT F DM D) (pen : PenaltyMT F P) s ds d q W : feq o (f0 o) (f0 o) = true ->
  solve_multi_task o srt dm df pen s ds d q = Ret W -> selected_rows o W <= budget 3 (s_ws_start_size s) (s_max_iterations s).
Proof using. intros E0 E. rewrite <- capacity_budget. exact (bcd_count o dm df pen srt E0 ds d q _ _ _ _ _ _ _ W E). Qed.
Lemma chk_same (chk : params F -> result (params F) (estimator_error F)) pr c :
  In chk [lasso_check_ref o; elastic_net_check_ref o; mcp_check_ref o; mt_lasso_check_ref o; mt_elastic_net_check_ref o; block_mcp_check_ref o] -> chk pr = Ok c -> c = pr.
Proof using.
  intros [<-|[<-|[<-|[<-|[<-|[<-|[]]]]]]]; cbv beta delta [lasso_check_ref elastic_net_check_ref mcp_check_ref mt_lasso_check_ref mt_elastic_net_check_ref block_mcp_check_ref];
  repeat (match goal with |- context [if ?b then _ else _] => destruct b end; try discriminate); congruence.
Qed.
Ltac fit1 := let E0 := fresh in let w := fresh in let c := fresh in let Ek := fresh in let E := fresh in intros w; unfold fit_unchecked; match goal with |- match ?x with _ => _ end = _ -> _ => destruct x as [c|] eqn:Ek; [|discriminate] end;
  apply chk_same in Ek; [subst c|cbn; tauto]; match goal with |- bind ?x _ = _ -> _ => destruct x eqn:E; cbn [bind]; [|discriminate] end; intros [= <-]; rewrite <- capacity_budget.
Lemma fits_budget (E0 : feq o (f0 o) (f0 o) = true) pr (dd : dataset (mat F) F) (ds : dataset (csc F) F) :
  let n := budget 3 (p_ws_start_size pr) (p_max_iterations pr) in
  selects_at_most o n (fit_unchecked (lasso_check_ref o) (lasso_fit_dense o srt) pr dd) /\ selects_at_most o n (fit_unchecked (lasso_check_ref o) (lasso_fit_sparse o srt) pr ds) /\
  selects_at_most o n (fit_unchecked (elastic_net_check_ref o) (elastic_net_fit_dense o srt) pr dd) /\ selects_at_most o n (fit_unchecked (elastic_net_check_ref o) (elastic_net_fit_sparse o srt) pr ds) /\
  selects_at_most o n (fit_unchecked (mcp_check_ref o) (mcp_fit_dense o srt) pr dd) /\ selects_at_most o n (fit_unchecked (mcp_check_ref o) (mcp_fit_sparse o srt) pr ds) /\
  selects_rows_at_most o n (fit_unchecked (mt_lasso_check_ref o) (mt_lasso_fit_dense o srt) pr dd) /\ selects_rows_at_most o n (fit_unchecked (mt_lasso_check_ref o) (mt_lasso_fit_sparse o srt) pr ds) /\
  selects_rows_at_most o n (fit_unchecked (mt_elastic_net_check_ref o) (mt_elastic_net_fit_dense o srt) pr dd) /\ selects_rows_at_most o n (fit_unchecked (mt_elastic_net_check_ref o) (mt_elastic_net_fit_sparse o srt) pr ds) /\
  selects_rows_at_most o n (fit_unchecked (block_mcp_check_ref o) (block_mcp_fit_dense o srt) pr dd) /\ selects_rows_at_most o n (fit_unchecked (block_mcp_check_ref o) (block_mcp_fit_sparse o srt) pr ds).
Proof using.
  intros n. unfold n, selects_at_most, selects_rows_at_most. repeat split; fit1; first [eapply cd_count; [exact E0|eassumption]|eapply bcd_count; [exact E0|eassumption]].
Qed.

(** *** acceleration with few epochs *)
Lemma chk_accel (chk : params F -> result (params F) (estimator_error F)) pr b b' :
  In chk [lasso_check_ref o; elastic_net_check_ref o; mcp_check_ref o; mt_lasso_check_ref o; mt_elastic_net_check_ref o; block_mcp_check_ref o] ->
  chk (set_use_acceleration b pr) = match chk (set_use_acceleration b' pr) with Ok _ => Ok (set_use_acceleration b pr) | Err e => Err e end.
Proof using.
  intros [<-|[<-|[<-|[<-|[<-|[<-|[]]]]]]]; cbv beta delta [lasso_check_ref elastic_net_check_ref mcp_check_ref mt_lasso_check_ref mt_elastic_net_check_ref block_mcp_check_ref]; cbn [set_use_acceleration p_alpha p_shape p_tolerance p_K p_ws_start_size];
  repeat (match goal with |- context [if ?b then _ else _] => destruct b end; auto).
Qed.
Lemma idle_gen {DM A} chk (fit : params F -> dataset DM F -> res A) good pr ds :
  In chk [lasso_check_ref o; elastic_net_check_ref o; mcp_check_ref o; mt_lasso_check_ref o; mt_elastic_net_check_ref o; block_mcp_check_ref o] ->
  (forall w, fit (set_use_acceleration true pr) ds = Ret w -> fit (set_use_acceleration false pr) ds = Ret w) ->
  finishes good (fit_unchecked chk fit (set_use_acceleration true pr) ds) -> fit_unchecked chk fit (set_use_acceleration true pr) ds = fit_unchecked chk fit (set_use_acceleration false pr) ds.
Proof using.
  intros Hin HI (x & E & _). unfold fit_unchecked in *. rewrite (chk_accel chk pr false true Hin). destruct (chk (set_use_acceleration true pr)) as [c|e] eqn:Ek; auto.
  pose proof (chk_same chk _ _ Hin Ek). subst c. destruct (fit (set_use_acceleration true pr) ds) as [w|]; [|discriminate]. rewrite (HI w eq_refl). auto.
Qed.
Section Idle.
Context (LF : float_laws o) (VS : valid_sort o srt) (n p T : nat) (X : mat F) (c : csc F) (t u : targets F) (pr : params F).
Context (HX : shaped n p X) (Hc : csc_wf n p c) (Ht : target1_wf n t) (Hu : target_wf n T u) (Hm : p_max_epochs pr <= p_K pr).
Let tp := set_use_acceleration true pr.
Let fp := set_use_acceleration false pr.
Local Notation same chk fit ds := (fit_unchecked (chk o) (fit o srt) tp ds = fit_unchecked (chk o) (fit o srt) fp ds).
Lemma idle_fits :
  same lasso_check_ref lasso_fit_dense (Dataset X t) /\ same lasso_check_ref lasso_fit_sparse (Dataset c t) /\
  same elastic_net_check_ref elastic_net_fit_dense (Dataset X t) /\ same elastic_net_check_ref elastic_net_fit_sparse (Dataset c t) /\
  same mcp_check_ref mcp_fit_dense (Dataset X t) /\ same mcp_check_ref mcp_fit_sparse (Dataset c t) /\
  same mt_lasso_check_ref mt_lasso_fit_dense (Dataset X u) /\ same mt_lasso_check_ref mt_lasso_fit_sparse (Dataset c u) /\
  same mt_elastic_net_check_ref mt_elastic_net_fit_dense (Dataset X u) /\ same mt_elastic_net_check_ref mt_elastic_net_fit_sparse (Dataset c u) /\
  same block_mcp_check_ref block_mcp_fit_dense (Dataset X u) /\ same block_mcp_check_ref block_mcp_fit_sparse (Dataset c u).
Proof using LF VS HX Hc Ht Hu Hm.
  assert (S1 : forall k, accel_safe (p_use_acceleration tp) (p_K tp) k (p_max_epochs tp)) by (intros; right; right; exact Hm).
  pose proof (c22_dense o LF srt VS n p X t tp HX Ht (S1 _)) as (A1 & A2 & A3). pose proof (c22_sparse o LF srt VS n p c t tp Hc Ht (S1 _)) as (B1 & B2 & B3).
  pose proof (c22_mt_dense o LF srt VS n p T X u tp HX Hu (S1 _)) as (C1 & C2 & C3). pose proof (c22_mt_sparse o LF srt VS n p T c u tp Hc Hu (S1 _)) as (D1 & D2 & D3).
  repeat split; (eapply idle_gen; [cbn; tauto| |eassumption]); intros w; first [apply cd_idle|apply bcd_idle]; exact Hm.
Qed.
End Idle.
End Any.

(** *** examples *)
(** four orthogonal columns, working sets of size one: the number of selected features is 0, 1, 2, 4 *)
Definition eyeX : mat f64 := Mat 4 4 (map (map f64_of) [[1; 0; 0; 0]; [0; 1; 0; 0]; [0; 0; 1; 0]; [0; 0; 0; 1]]%Z).
Definition eyey : targets f64 := T1 (map f64_of [40; 30; 20; 10]%Z).
Definition eyepr (k : nat) : params f64 := Params (f1 ops64) (f1 ops64) k 5 1 (flit ops64 1 1000000) 5 false false.
Definition eyefit k := fit_unchecked (lasso_check_ref ops64) (lasso_fit_dense ops64 srt64) (eyepr k) (Dataset eyeX eyey).
Lemma eye_counts : map (fun k => match eyefit k with Ret (Ok w) => Some (selected ops64 w) | _ => None end) [0; 1; 2; 3; 4] = map Some [0; 1; 2; 4; 4].
Proof. vm_compute. reflexivity. Qed.
Lemma eye_shaped : shaped 4 4 eyeX /\ target1_wf 4 eyey.
Proof. unfold shaped. simpl. repeat split; auto. simpl. repeat constructor. Qed.
Lemma ex_exact_returns m : exists v, fit_l lmX lmy (1/2) 0 m = Ret (Ok v).
Proof.
  destruct (ex_fit_l lmX lmy (1/2) 0 ltac:(lra)) as [_ HA].
  destruct (c22_dense xops xr_laws (dsort xops) xr_sort 2 2 (xm 2 2 lmX) (T1 (xv 2 lmy)) (set_max_iterations m (gpr (1/2) 0)) (xm_shaped _ _ _) eq_refl ltac:(left; reflexivity)) as ((x & E & _) & _).
  destruct x as [v|e]; [exists v; exact E|]. exfalso. exact (HA m e E).
Qed.

Definition idlepr : params f64 := Params (f1 ops64) (f1 ops64) 3 5 10 (flit ops64 1 1000000) 5 true false.
Definition idlefit (b : bool) (me : nat) := fit_unchecked (lasso_check_ref ops64) (lasso_fit_dense ops64 srt64) (set_use_acceleration b (set_max_epochs me idlepr)) (Dataset rX ry).
Definition kind (r : res (result (list f64) (estimator_error f64))) : option nat := match r with Ret (Ok w) => Some (selected ops64 w) | _ => None end.
Lemma idle_kinds : map (fun e => kind (idlefit (fst e) (snd e))) [(true, 5); (true, 6); (false, 6); (true, 0)] = [Some 1; None; Some 1; Some 0].
Proof. vm_compute. reflexivity. Qed.
Lemma idle_differs : exists pr, p_max_epochs pr = S (p_K pr) /\
  fit_unchecked (lasso_check_ref ops64) (lasso_fit_dense ops64 srt64) (set_use_acceleration true pr) (Dataset rX ry) <>
  fit_unchecked (lasso_check_ref ops64) (lasso_fit_dense ops64 srt64) (set_use_acceleration false pr) (Dataset rX ry).
Proof.
  exists (set_max_epochs 6 idlepr). split; [reflexivity|]. intros H. change (idlefit true 6 = idlefit false 6) in H.
  pose proof idle_kinds as K. cbn [map fst snd] in K. rewrite H in K. destruct (kind (idlefit true 5)), (kind (idlefit false 6)); discriminate.
Qed.
Lemma ex_half : single_fit (dsort xops) 2 2 lmX lmy Squared (LassoPen (1/2)) (settings (gpr (1/2) 0)) (fit_l lmX lmy (1/2) 0) /\ accepted (fit_l lmX lmy (1/2) 0).
Proof. exact (ex_fit_l lmX lmy (1/2) 0 ltac:(lra)). Qed.
Section Unused.
Context {F DM : Type} (o : FOps F) (srt : list F -> list nat) (dm : DesignMatrix F DM).
Lemma solve_unused_K {D P} (df : Datafit F DM D) (pen : Penalty F P) s K v ds d q :
  s_use_acceleration s = false -> solve o srt dm df pen (solver_verbose v (solver_K K s)) ds d q = solve o srt dm df pen s ds d q.
Proof using. intros E. unfold solve, solver_verbose, solver_K. cbn [s_ws_start_size s_max_iterations s_max_epochs s_tolerance s_K s_use_acceleration s_verbose]. rewrite E. apply cd_K. Qed.
Lemma solve_unused_K_mt {D P} (df : DatafitMT F DM D) (pen : PenaltyMT F P) s K v ds d q :
  s_use_acceleration s = false -> solve_multi_task o srt dm df pen (solver_verbose v (solver_K K s)) ds d q = solve_multi_task o srt dm df pen s ds d q.
Proof using. intros E. unfold solve_multi_task, solver_verbose, solver_K. cbn [s_ws_start_size s_max_iterations s_max_epochs s_tolerance s_K s_use_acceleration s_verbose]. rewrite E. apply bcd_K. Qed.
End Unused.
