(** Concrete instances for [PropTol]. *)
From Coq Require Import List ZArith Bool Arith Lia Reals Lra.
From Verif Require Import Ops Arr MUtils MDatasets MDatafits MDatafitsMT MPenalties MBlockPenalties MCd MBcd MHyper MEstimators XR VecR RSum PBase SpecPen SpecLin SpecData SpecDatafit SpecSolve SpecOpt SpecTol PDatafit PDataProps PDataEx PLaws POptEx PFitOpt PPanics PPanicsEx PTol.
Import ListNotations.
Open Scope R_scope.

(** the MCP example of C25 with another tolerance *)
Definition tpr (t : xr) : params xr := set_tolerance t (opr (1/10) 3).
Definition fit_tol t m := estimator_sparse (dsort xops) (McpPen (1/10) 3) (set_max_iterations m (tpr t)) (Dataset exC (T1 (xv 3 oy))).
Lemma tol_fit t : single_fit (dsort xops) 3 3 (entry exE) oy Squared (McpPen (1/10) 3) (settings (tpr t)) (fit_tol t).
Proof. apply (fit_sparse (dsort xops) 3 3 exE exC oy (McpPen (1/10) 3) (tpr t) (T1 (xv 3 oy))); [apply ex_csc|apply ex_csc|left; reflexivity|split; reflexivity]. Qed.
Lemma tol_accepted t : t = NaN \/ (exists r, 0 <= r /\ t = Fin r) \/ t = PInf -> accepted (fit_tol t).
Proof.
  assert (Hp : forall A (r : res A) e, ok r <> Ret (Err e)) by (intros A [r|] e; discriminate).
  intros Ht m e. unfold fit_tol. cbn [estimator_sparse]. unfold fit_unchecked.
  replace (mcp_check_ref xops (set_max_iterations m (tpr t))) with (@Ok _ (estimator_error xr) (set_max_iterations m (tpr t))); [apply Hp|].
  unfold mcp_check_ref, set_max_iterations, tpr, set_tolerance, opr. cbn [p_alpha p_shape p_tolerance p_K p_ws_start_size fisneg flt f1 xops xlt Nat.leb].
  destruct Ht as [->| [(r & Hr & ->)| ->]]; cbn [xisneg]; rewrite !(proj2 (Rltb_false _ _)) by lra; reflexivity.
Qed.
Lemma tol_same t t' : same_but_tolerance (settings (tpr t)) (settings (tpr t')).
Proof. repeat split. Qed.
Lemma tol_ex : stricter NaN (Fin 0) /\ stricter (Fin (1/100)) (Fin (1/10)) /\ stricter (Fin (1/10)) PInf /\ ~ stricter PInf (Fin 1) /\
  (exists m w, fit_tol (Fin (1/100)) m = Ret (Ok (xv 3 w)) /\ exists j, (j < 3)%nat /\ w j <> 0) /\
  forall m, fit_tol PInf m = Ret (Ok (xv 3 (fun _ => 0))).
Proof.
  split; [left; auto|]. split; [right; apply Rleb_spec; lra|]. split; [right; reflexivity|]. split; [intros [E|E]; discriminate|]. split.
  - destruct ex_mcp_result as (m & w & Hm & _ & Hw). exists m, w. split; [exact (Hm m (le_n _))|exact Hw].
  - intros m. apply (c96_inf (dsort xops) xr_sort 3 3 ltac:(lia) _ _ _ _ _ _ (tol_fit PInf)); [apply tol_accepted; auto|reflexivity].
Qed.

(** the panicking example of C23 returns the null model under an infinite tolerance *)
Definition ppr (t : xr) : params xr := set_tolerance t (pan (1/10)).
Definition fit_ptol t m := estimator_dense (dsort xops) (LassoPen (1/10)) (set_max_iterations m (ppr t)) (Dataset (xm 3 3 (entry exE)) (T1 (xv 3 oy))).
Lemma ptol_fit t : single_fit (dsort xops) 3 3 (entry exE) oy Squared (LassoPen (1/10)) (settings (ppr t)) (fit_ptol t).
Proof. apply (fit_dense (dsort xops) 3 3 (entry exE) oy (LassoPen (1/10)) (ppr t) (T1 (xv 3 oy))); [left; reflexivity|reflexivity]. Qed.
Lemma strict_panics : exists s s' fit fit',
  single_fit (dsort xops) 3 3 (entry exE) oy Squared (LassoPen (1/10)) s fit /\ single_fit (dsort xops) 3 3 (entry exE) oy Squared (LassoPen (1/10)) s' fit' /\ accepted fit /\
  same_but_tolerance s s' /\ stricter (s_tolerance s) (s_tolerance s') /\ fit' 1%nat = Ret (Ok (xv 3 (fun _ => 0))) /\ fit 1%nat = Panic POob.
Proof.
  exists (settings (pan (1/10))), (settings (ppr PInf)), fit_pan, (fit_ptol PInf). destruct pan_ex as (HF & HA & E1 & E2 & E3 & E4 & E5).
  split; [exact HF|]. split; [apply ptol_fit|]. split; [exact HA|]. split; [repeat split|]. split; [right; reflexivity|]. split.
  - apply (c96_inf (dsort xops) xr_sort 3 3 ltac:(lia) _ _ _ _ _ _ (ptol_fit PInf)); [|reflexivity].
    assert (Hp : forall A (r : res A) e, ok r <> Ret (Err e)) by (intros A [r|] e; discriminate).
    intros m e. unfold fit_ptol. cbn [estimator_dense]. unfold fit_unchecked.
    replace (lasso_check_ref xops (set_max_iterations m (ppr PInf))) with (@Ok _ (estimator_error xr) (set_max_iterations m (ppr PInf))); [apply Hp|].
    unfold lasso_check_ref, set_max_iterations, ppr, pan, set_tolerance, set_alpha, lasso_params_new. cbn [p_alpha p_shape p_tolerance p_K p_ws_start_size fisneg xops xisneg Nat.leb].
    rewrite !(proj2 (Rltb_false _ _)) by lra. reflexivity.
  - apply (small_single (dsort xops) xr_sort 3 3 ltac:(lia) _ _ _ _ _ _ _ HF E1 E2 E3 E4 E5 HA 1%nat (le_n _)). exact pan_not_stationary.
Qed.
