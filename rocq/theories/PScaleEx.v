(** Concrete instances for [PropUnits]. *)
From Coq Require Import List ZArith Bool Arith Reals Lra Lia.
From Verif Require Import Ops Arr MUtils MDatasets MDatafits MDatafitsMT MPenalties MBlockPenalties MCd MBcd MHyper MEstimators XR SpecPen VecR PBase RSum SpecLin SpecData SpecDatafit PDatafit PDataProps PDataEx SpecSolve PLaws SpecOpt SpecNull PFitOpt PNullFit SpecOrth SpecScale POrth POrthEx PScale PScaleFit.
Import ListNotations.
Open Scope R_scope.

(** the data of [POrthEx], every sample twice, features times 1/2, targets times 3 *)
Definition scX : rmat := fun i j => 1/2 * orX (i mod 2)%nat j.
Definition scy : nat -> R := fun i => 3 * ory (i mod 2)%nat.
Definition scY : rmat := fun i t => 3 * orY (i mod 2)%nat t.
Definition scpr : params xr := Params (Fin (3/4)) (Fin 12) 50 7 3 (Fin (1/2 * 3 * (1/100))) 2 true false.
Definition fit_sc m := estimator_dense (dsort xops) (McpPen (3/4) 12) (set_max_iterations m scpr) (Dataset (xm 4 3 scX) (T1 (xv 4 scy))).
Definition fit_scT m := ok (mt_solver_call (dsort xops) (dense_dm xops) (qmt_dense xops) (BlockMcpPen (3/4) 12) (solver_max_iterations m (settings scpr)) (Dataset (xm 4 3 scX) (T2 (xm 4 2 scY))) (QuadMT [] (Mat 0 0 []))).
Lemma ex_fit_sc : single_fit (dsort xops) (2 * 2) 3 scX scy Squared (McpPen (3/4) 12) (settings scpr) fit_sc /\ accepted fit_sc.
Proof.
  split; [apply (fit_dense (dsort xops) 4 3 scX scy (McpPen (3/4) 12) scpr (T1 (xv 4 scy))); [left; reflexivity|split; reflexivity]|].
  intros m e. unfold fit_sc, estimator_dense, fit_unchecked, mcp_check_ref, set_max_iterations, scpr. cbn [p_alpha p_shape p_tolerance p_K p_ws_start_size fisneg flt f1 f0 xops xisneg xlt fle xle Nat.eqb].
  rewrite ?(proj2 (Rltb_false _ _)) by lra. rewrite ?(proj2 (Rleb_false _ _)) by lra. cbn [Nat.leb]. match goal with |- bind ?r _ <> _ => destruct r; discriminate end.
Qed.
Lemma ex_fit_scT : multi_fit (dsort xops) (2 * 2) 3 2 scX scY (BlockMcpPen (3/4) 12) (settings scpr) fit_scT /\ accepted fit_scT.
Proof.
  split; [apply (mt_solve_dense (dsort xops) 4 3 2 scX scY (BlockMcpPen (3/4) 12) (settings scpr) (QuadMT [] (Mat 0 0 [])) (T2 (xm 4 2 scY))); [left; reflexivity|simpl; lra]|].
  intros m e. unfold fit_scT. destruct (mt_solver_call _ _ _ _ _ _ _); discriminate.
Qed.
Lemma sc_units : rescaled_data 2 2 3 (1/2) 3 orX ory scX scy /\ rescaled_data_mt 2 2 3 2 (1/2) 3 orX orY scX scY /\
  rescaled_pen (1/2) 3 (McpPen (1/2) 3) (McpPen (3/4) 12) /\ rescaled_pen_mt (1/2) 3 (BlockMcpPen (1/2) 3) (BlockMcpPen (3/4) 12) /\ rescaled_settings (1/2) 3 (settings orpr) (settings scpr).
Proof.
  split; [split; intros; reflexivity|]. split; [split; intros; reflexivity|]. split; [cbn; lra|]. split; [split; cbn; auto; lra|].
  repeat split. exists (1/100). split; reflexivity.
Qed.

(** *** multi-task elastic net: one sample, one feature, one task *)
Definition unX : rmat := fun _ _ => 1.
Definition unpr (a tol : R) : params xr := Params (Fin a) (Fin 1) 50 7 3 (Fin tol) 2 false false.
Definition unY (y : R) : rmat := fun _ _ => y.
Definition fit_un (a tol y : R) (m : nat) := mt_estimator_dense (dsort xops) (MtEnetPen a 1) (set_max_iterations m (unpr a tol)) (Dataset (xm 1 1 unX) (T2 (xm 1 1 (unY y)))).
Lemma ex_fit_un a tol y : 0 < a -> 0 <= tol -> multi_fit (dsort xops) 1 1 1 unX (unY y) (MtEnetPen a 1) (settings (unpr a tol)) (fit_un a tol y) /\ accepted (fit_un a tol y).
Proof.
  intros Ha Ht. split.
  - apply (mt_fit_dense (dsort xops) 1 1 1 unX (unY y) (MtEnetPen a 1) (unpr a tol)); [left; reflexivity|split; reflexivity|simpl; lra].
  - intros m e. unfold fit_un. cbn [mt_estimator_dense]. unfold fit_unchecked.
    replace (mt_elastic_net_check_ref xops (set_max_iterations m (unpr a tol))) with (@Ok _ (estimator_error xr) (set_max_iterations m (unpr a tol))).
    + destruct (mt_elastic_net_fit_dense _ _ _ _); discriminate.
    + unfold mt_elastic_net_check_ref, set_max_iterations, unpr. cbn [p_alpha p_shape p_tolerance p_K p_ws_start_size fisneg flt f1 f0 xops xisneg xlt Nat.leb]. rewrite !(proj2 (Rltb_false _ _)) by lra. reflexivity.
Qed.
Lemma un_norm y : 0 <= y -> norm2 (map (fun t => Sum 1 (fun i => unX i 0%nat * unY y i t) / INR 1) (seq 0 1)) = y.
Proof.
  intros Hy. replace (map (fun t => Sum 1 (fun i => unX i 0%nat * unY y i t) / INR 1) (seq 0 1)) with [y]; [rewrite PRefPen.norm2_1; apply Rabs_right; lra|].
  cbn [seq map]. unfold Sum, unX, unY. simpl. f_equal. field.
Qed.
Lemma un_orth : orthogonal 1 1 unX. Proof. intros j k Hj Hk Hne. lia. Qed.
Lemma un_run a tol y m : 0 < a -> 0 <= tol -> 0 <= y -> (1 <= m)%nat ->
  (y ^ 2 <= a + tol -> fit_un a tol y m = Ret (Ok (xm 1 1 (fun _ _ => 0)))) /\ (a + tol < y ^ 2 -> fit_un a tol y m = Ret (Ok (xm 1 1 (closed_form_mt (MtEnetPen a 1) 1 1 unX (unY y))))).
Proof.
  intros Ha Ht Hy Hm. destruct (ex_fit_un a tol y Ha Ht) as [HF HA].
  destruct (orth_multi (dsort xops) xr_sort 1 1 ltac:(lia) 1 unX (unY y) (MtEnetPen a 1) (settings (unpr a tol)) (fit_un a tol y) tol HF HA eq_refl Ht un_orth I ltac:(cbn; lia) ltac:(cbn; lia) ltac:(left; reflexivity)) as [[H1 H2]|[H1 H2]].
  - split; intros; [apply H2|]. exfalso. specialize (H1 0%nat ltac:(lia)). rewrite un_norm in H1 by auto. cbn [zero_level slope_mt] in H1. lra.
  - split; intros; [|apply H2; auto]. exfalso. apply H1. intros j Hj. replace j with 0%nat by lia. rewrite un_norm by auto. cbn [zero_level slope_mt]. lra.
Qed.
Lemma enet_units_witness : exists X Y X' Y' k k' s s' fit fit',
  multi_fit (dsort xops) 1 1 1 X Y k s fit /\ multi_fit (dsort xops) (1 * 1) 1 1 X' Y' k' s' fit' /\ accepted fit /\ accepted fit' /\ rescaled_data_mt 1 1 1 1 1 2 X Y X' Y' /\ rescaled_pen 1 2 (of_norm k) (of_norm k') /\ rescaled_settings 1 2 s s' /\
  fit 1%nat = Ret (Ok (xm 1 1 (fun _ _ => 0))) /\ fit' 1%nat = Ret (Ok (xm 1 1 (fun _ _ => 2/5))).
Proof.
  exists unX, (unY (1/2)), unX, (unY 1), (MtEnetPen (3/10) 1), (MtEnetPen (6/10) 1), (settings (unpr (3/10) (1/100))), (settings (unpr (6/10) (1 * 2 * (1/100)))), (fit_un (3/10) (1/100) (1/2)), (fit_un (6/10) (1 * 2 * (1/100)) 1).
  destruct (ex_fit_un (3/10) (1/100) (1/2) ltac:(lra) ltac:(lra)) as [A B]. destruct (ex_fit_un (6/10) (1 * 2 * (1/100)) 1 ltac:(lra) ltac:(lra)) as [A' B'].
  split; [exact A|]. split; [exact A'|]. split; [exact B|]. split; [exact B'|]. split; [split; intros; unfold unX, unY; lra|]. split; [cbn; lra|].
  split; [repeat split; exists (1/100); split; reflexivity|]. split; [apply un_run; try lra; lia|].
  destruct (un_run (6/10) (1 * 2 * (1/100)) 1 1%nat) as [_ H]; try lra; try lia. rewrite H by lra. do 2 f_equal. apply PLin.xm_ext. intros j t Hj Ht. replace j with 0%nat by lia. replace t with 0%nat by lia.
  unfold closed_form_mt. cbv zeta. rewrite un_norm by lra. cbn [of_norm shrunk]. unfold Sum, unX, unY. simpl. rewrite Rmax_right by lra. field.
Qed.

(** *** repeated samples: the logistic loss, solver called directly *)
Definition rpX : rmat := fun i j => orX (i mod 2)%nat j.
Definition rpy : nat -> R := fun i => ory (i mod 2)%nat / 3.
Definition fit_lo (n : nat) (X : rmat) (y : nat -> R) m := ok (solver_call (dsort xops) (dense_dm xops) (log_dense xops) (EnetPen (1/2) (1/2)) (solver_max_iterations m (settings orpr)) (Dataset (xm n 3 X) (T1 (xv n y))) (Logi [])).
Lemma ex_fit_lo n X y : single_fit (dsort xops) n 3 X y Logistic (EnetPen (1/2) (1/2)) (settings orpr) (fit_lo n X y) /\ accepted (fit_lo n X y).
Proof.
  split; [apply (solve_log_dense (dsort xops) n 3 X y (EnetPen (1/2) (1/2)) (settings orpr)); [left; reflexivity|simpl; lra]|].
  intros m e. unfold fit_lo. destruct (solver_call _ _ _ _ _ _ _); discriminate.
Qed.
Lemma rp_X i j : rpX i j = rpX (i mod 2)%nat j.
Proof. unfold rpX. rewrite Nat.mod_mod by lia. auto. Qed.
Lemma rp_y i : rpy i = rpy (i mod 2)%nat.
Proof. unfold rpy. rewrite Nat.mod_mod by lia. auto. Qed.
