(** From runs of the reference solver to what the estimators return. *)
From Coq Require Import List ZArith Bool Arith Reals Lra Lia.
From Verif Require Import Ops Arr MUtils MDatasets MDatafits MDatafitsMT MPenalties MBlockPenalties MCd MBcd MHyper MEstimators XR SpecPen VecR PBase RSum PProx SpecLin SpecData PDatafit PCalc PDataProps SpecSolve PLaws PRef PRefCD PRefPen PSim PFit PSubdiff PSubdiffBlock PSymProps PDescent PConv PTheory SpecOpt.
Import ListNotations.
Open Scope R_scope.

(** *** the reference problem of a call *)
Definition prox1 (k : single_pen) : R -> R -> R :=
  match k with LassoPen a => fun v s => rsoft v (a * s) | EnetPen a r => enet_prox a r | McpPen a g => fun v s => rmcp_prox a g s v end.
Definition dist1 (k : single_pen) : R -> R -> R :=
  match k with LassoPen a => r_l1_score a | EnetPen a r => r_l1l2_score a r | McpPen a g => r_mcp_score a g end.
Definition okstep1 (k : single_pen) (s : R) : Prop := match k with McpPen _ g => 0 < s <= g | _ => 0 < s end.
Definition c1 (k : single_pen) (s : R) : R := match k with LassoPen _ => 1 | EnetPen a r => 1 + s * (1 - r) * a | McpPen _ g => 1 - s / g end.
Definition prob1 (l : single_loss) (k : single_pen) (n p : nat) (X : rmat) (y : nat -> R) : problem :=
  match l with Squared => quadP n p X y (prox1 k) (pen1 k) (dist1 k) | Logistic => logP n p X y (prox1 k) (pen1 k) (dist1 k) end.
Definition proxT (k : multi_pen) : list R -> R -> list R :=
  match k with
  | MtLassoPen a => bprox (l21_penalty xops) (L21 (Fin a))
  | MtEnetPen a r => bprox (bl1l2_penalty xops) (BlockL1PlusL2 (Fin a) (Fin r))
  | BlockMcpPen a g => bprox (bmcp_penalty xops) (BlockMCP (Fin a) (Fin g))
  end.
Definition distT (k : multi_pen) : list R -> list R -> R :=
  match k with MtLassoPen a => r_l21_score a | MtEnetPen a r => r_bl1l2_score a r | BlockMcpPen a g => r_bmcp_score a g end.
Definition okstepT (k : multi_pen) (s : R) : Prop := match k with BlockMcpPen _ g => 0 < s <= g | _ => 0 < s end.
Definition cT (k : multi_pen) (s : R) : R := match k with MtLassoPen _ => 1 | MtEnetPen a r => 1 + s * (1 - r) * a | BlockMcpPen _ g => 1 - s / g end.
Definition probT (k : multi_pen) (n p T : nat) (X Y : rmat) : problem := mtP n p T X Y (proxT k) (penT k) (distT k).

Definition go1 srt p (s : solver xr) (PB : problem) (m : nat) : res (result (list xr) (estimator_error xr)) :=
  ok (run1 srt p (s_ws_start_size s) m (s_max_epochs s) (s_tolerance s) (s_K s) (s_use_acceleration s) PB).
Definition goT srt p T (s : solver xr) (PB : problem) (m : nat) : res (result (mat xr) (estimator_error xr)) :=
  ok (runT srt p T (s_ws_start_size s) m (s_max_epochs s) (s_tolerance s) (s_K s) (s_use_acceleration s) PB).
Definition rejected {A E} (fit : nat -> res (result A E)) : Prop := exists e, forall m, fit m = Ret (Err e).

Lemma pen1_theory k : pen1_range k -> pen_theory 1 (lprox (prox1 k)) (lpv (pen1 k)) (okstep1 k) (c1 k).
Proof.
  destruct k; cbn [pen1_range]; intros Hr; [apply l1_theory; auto|destruct Hr; apply l1l2_theory; auto|destruct Hr; apply mcp_theory; auto].
Qed.
Lemma pen1_dist k w g : pen1_range k -> is_dist (subgrad (pen1 k) w) (- g) (dist1 k w g).
Proof. destruct k; cbn [pen1_range]; intros Hr; [apply r_l1_score_dist; auto|destruct Hr; apply r_l1l2_score_dist; auto|destruct Hr; apply r_mcp_score_dist; auto]. Qed.
Lemma pen1_scores k : pen1_range k -> score_theory 1 (lpv (pen1 k)) (ldist (dist1 k)).
Proof. intros Hr. apply score1. intros. apply pen1_dist; auto. Qed.
Lemma penT_theory k T : penT_range k -> pen_theory T (proxT k) (penT k) (okstepT k) (cT k).
Proof. destruct k; cbn [penT_range]; intros Hr; [apply l21_theory; auto|destruct Hr as (? & ? & ?); apply bl1l2_theory; auto|destruct Hr; apply bmcp_theory; auto]. Qed.

Lemma curv_Lq n X j : curvature Squared n X j = Lq n X j.
Proof. unfold curvature, Lq. f_equal. apply Sum_ext. intros. ring. Qed.
Lemma curv_Ll n X j : curvature Logistic n X j = Ll n X j.
Proof. unfold curvature, Ll. f_equal. apply Sum_ext. intros. ring. Qed.

Section S.
Variables (srt : list xr -> list nat) (VS : valid_sort xops srt) (n p : nat) (Hn : (1 <= n)%nat).
Lemma prob1_L l k X y j : pL (prob1 l k n p X y) j = curvature l n X j.
Proof. destruct l; cbn [prob1 quadP logP single_problem pL]; symmetry; [apply curv_Lq|apply curv_Ll]. Qed.
Lemma curv_nonneg l X j : 0 <= curvature l n X j.
Proof. destruct l; [rewrite curv_Lq; apply Lq_nonneg|rewrite curv_Ll; apply Ll_nonneg]; auto. Qed.
Lemma curv_live l X j : curvature l n X j <> 0 -> exists i, (i < n)%nat /\ X i j <> 0.
Proof.
  intros H. apply (Lq_live n X Hn). destruct l; [rewrite curv_Lq in H; auto|]. rewrite curv_Ll in H. intros E. apply H. rewrite Ll_Lq, E by auto. lra.
Qed.
Lemma curv_dead l X j : (forall i, (i < n)%nat -> X i j = 0) -> curvature l n X j = 0.
Proof.
  intros H. destruct l; cbn [curvature]; rewrite (Sum_ext n _ (fun _ => 0)), Sum_const0; try (unfold Rdiv; ring); intros i Hi; rewrite H by auto; ring.
Qed.
Lemma step_le g L : 0 < L -> 1 <= g * L -> 0 < 1 / L <= g.
Proof. intros HL H. split; [apply Rdiv_lt_0_compat; lra|]. apply Rmult_le_reg_r with L; auto. unfold Rdiv. rewrite Rmult_assoc, Rinv_l by lra. lra. Qed.
Lemma step_lt g L : 0 < L -> 1 < g * L -> 0 < 1 / L < g.
Proof. intros HL H. split; [apply Rdiv_lt_0_compat; lra|]. apply Rmult_lt_reg_r with L; auto. unfold Rdiv. rewrite Rmult_assoc, Rinv_l by lra. lra. Qed.
Lemma prob1_steps l k X y : steps_ok Rle k l n p X -> forall j, (j < p)%nat -> pL (prob1 l k n p X y) j <> 0 -> okstep1 k (1 / pL (prob1 l k n p X y) j).
Proof.
  intros HS j Hj. rewrite prob1_L. intros HL. pose proof (curv_nonneg l X j). assert (0 < 1 / curvature l n X j) by (apply Rdiv_lt_0_compat; lra).
  destruct k; cbn [okstep1 steps_ok] in *; auto. apply step_le; [lra|]. apply HS; auto. apply curv_live with l; auto.
Qed.
Lemma probT_steps k T X Y : steps_ok_mt Rle k n p X -> forall j, (j < p)%nat -> pL (probT k n p T X Y) j <> 0 -> okstepT k (1 / pL (probT k n p T X Y) j).
Proof.
  intros HS j Hj. cbn [probT mtP pL]. rewrite <- curv_Lq. intros HL. pose proof (curv_nonneg Squared X j). assert (0 < 1 / curvature Squared n X j) by (apply Rdiv_lt_0_compat; lra).
  destruct k; cbn [okstepT steps_ok_mt] in *; auto. apply step_le; [lra|]. apply HS; auto. apply curv_live with Squared; auto.
Qed.
Lemma prob1_data l k X y : targets_ok l n y -> data_theory (prob1 l k n p X y).
Proof. destruct l; cbn [prob1 targets_ok]; intros Hy; [apply quad_data; auto|apply log_data; auto]. Qed.
Lemma prob1_pen l k X y : pen1_range k -> pen_theory (pT (prob1 l k n p X y)) (pprox (prob1 l k n p X y)) (ppv (prob1 l k n p X y)) (okstep1 k) (c1 k).
Proof. intros Hr. destruct l; apply (pen1_theory k Hr). Qed.
Lemma prob1_p l k X y : pp (prob1 l k n p X y) = p. Proof. destruct l; auto. Qed.
Lemma prob1_T l k X y : pT (prob1 l k n p X y) = 1%nat. Proof. destruct l; auto. Qed.
Lemma prob1_n l k X y : pn (prob1 l k n p X y) = n. Proof. destruct l; auto. Qed.
Lemma prob1_X l k X y : pX (prob1 l k n p X y) = X. Proof. destruct l; auto. Qed.
Lemma prob1_row l k X y W j : row (prob1 l k n p X y) W j = [W j 0%nat]. Proof. destruct l; auto. Qed.
Lemma prob1_pv l k X y v : ppv (prob1 l k n p X y) v = pen1 k (nth 0 v 0). Proof. destruct l; auto. Qed.
Lemma lin1 X W i : lin_mt p X W i 0 = lin p X (fun j => W j 0%nat) i. Proof. reflexivity. Qed.
Lemma prob1_obj l k X y W Z : fitted (prob1 l k n p X y) (W, Z) ->
  obj (prob1 l k n p X y) (W, Z) = objective (loss1 l n y) p X (pen1 k) (fun j => W j 0%nat).
Proof.
  intros HF. unfold obj, robj, objective. cbn [fst snd]. rewrite prob1_p. f_equal.
  - unfold fitted in HF. rewrite prob1_n, prob1_T, prob1_p, prob1_X in HF. cbn [fst snd] in HF. destruct l; cbn [prob1 quadP logP single_problem pf loss1].
    + rewrite quad_single. unfold quad_loss. f_equal. apply Sum_ext. intros i Hi. rewrite (HF i 0%nat) by auto. reflexivity.
    + unfold logloss, logistic_loss. f_equal. apply Sum_ext. intros i Hi. rewrite (HF i 0%nat) by auto. reflexivity.
  - apply Sum_ext. intros j Hj. rewrite prob1_pv, prob1_row. reflexivity.
Qed.
Lemma prob1_obj0 l k X y : obj (prob1 l k n p X y) (fun _ _ => 0, fun _ _ => 0) = objective (loss1 l n y) p X (pen1 k) (fun _ => 0).
Proof. apply (prob1_obj l k X y (fun _ _ => 0)). apply start_fitted. Qed.
Definition dloss1 (l : single_loss) (X : rmat) (y : nat -> R) (w : nat -> R) (j : nat) : R :=
  match l with Squared => gq n X (fun i _ => y i) (fun i _ => lin p X w i) j 0%nat | Logistic => gl n X y (fun i _ => lin p X w i) j end.
Lemma loss1_deriv l X y w j : (j < p)%nat -> derivable_pt_lim (fun s => loss1 l n y (lin p X (set1 w j s))) (w j) (dloss1 l X y w j).
Proof. intros Hj. destruct l; [apply quad_deriv|apply log_deriv]; auto. Qed.
Lemma prob1_dist l k X y W Z j : (j < p)%nat -> fitted (prob1 l k n p X y) (W, Z) ->
  rdist (prob1 l k n p X y) W Z j = dist1 k (W j 0%nat) (dloss1 l X y (fun j => W j 0%nat) j).
Proof.
  intros Hj HF. unfold rdist. rewrite !prob1_row. unfold fitted in HF. rewrite prob1_n, prob1_T, prob1_p, prob1_X in HF. cbn [fst snd] in HF.
  destruct l; cbn [prob1 quadP logP single_problem pdist pg dloss1 nth].
  - f_equal. unfold gq. f_equal. f_equal. apply Sum_ext. intros i Hi. rewrite (HF i 0%nat) by auto. reflexivity.
  - f_equal. unfold glT, gl. f_equal. f_equal. apply Sum_ext. intros i Hi. rewrite (HF i 0%nat) by auto. reflexivity.
Qed.
Lemma is_dist_unique S z d d' : is_dist S z d -> is_dist S z d' -> d = d'.
Proof. intros [A1 (s & A2 & A3)] [B1 (s' & B2 & B3)]. specialize (A1 s' B2). specialize (B1 s A2). lra. Qed.
Lemma is_vdist_unique S z d d' : is_vdist S z d -> is_vdist S z d' -> d = d'.
Proof. intros [A1 (s & A2 & A3)] [B1 (s' & B2 & B3)]. specialize (A1 s' B2). specialize (B1 s A2). lra. Qed.
Lemma stationary_iff l k X y w eps : pen1_range k ->
  (stationary eps (loss1 l n y) p X (pen1 k) w <-> forall j, (j < p)%nat -> dist1 k (w j) (dloss1 l X y w j) <= eps).
Proof.
  intros Hr. split.
  - intros H j Hj. destruct (H j Hj) as (d & (g & Dg & Hd) & Hle). assert (g = dloss1 l X y w j) as -> by (eapply uniqueness_limite; [exact Dg|apply loss1_deriv; auto]).
    rewrite (is_dist_unique _ _ _ _ (pen1_dist k (w j) (dloss1 l X y w j) Hr) Hd). auto.
  - intros H j Hj. exists (dist1 k (w j) (dloss1 l X y w j)). split; auto. exists (dloss1 l X y w j). split; [apply loss1_deriv; auto|apply pen1_dist; auto].
Qed.
Lemma done_stationary l k X y W Z eps : pen1_range k -> fitted (prob1 l k n p X y) (W, Z) ->
  (done (prob1 l k n p X y) eps (W, Z) <-> stationary eps (loss1 l n y) p X (pen1 k) (fun j => W j 0%nat)).
Proof.
  intros Hr HF. rewrite stationary_iff by auto. unfold done. rewrite prob1_p. cbn [fst snd]. split; intros H j Hj; specialize (H j Hj); rewrite (prob1_dist l k X y) in * by auto; auto.
Qed.
(** values agreeing on the first [p] coordinates *)
Lemma xv_inj w w' : xv p w = xv p w' -> forall j, (j < p)%nat -> w j = w' j.
Proof. intros E j Hj. apply (f_equal (fun l => nth j l NaN)) in E. unfold xv in E. rewrite !nth_tab in E by auto. injection E. auto. Qed.
Lemma stationary_ext l k X y w w' eps : pen1_range k -> (forall j, (j < p)%nat -> w j = w' j) ->
  stationary eps (loss1 l n y) p X (pen1 k) w -> stationary eps (loss1 l n y) p X (pen1 k) w'.
Proof.
  intros Hr E. rewrite !stationary_iff by auto. intros H j Hj. specialize (H j Hj). rewrite <- E by auto.
  assert (EL : forall i, lin p X w' i = lin p X w i) by (intros; apply Sum_ext; intros; rewrite E; auto).
  replace (dloss1 l X y w' j) with (dloss1 l X y w j); auto. destruct l; cbn [dloss1]; unfold gq, gl; f_equal; f_equal; apply Sum_ext; intros; rewrite EL; auto.
Qed.

(** *** calls are runs *)
Lemma settings_it m pr : s_max_iterations (settings (set_max_iterations m pr)) = m. Proof. reflexivity. Qed.
Lemma chk_iter_l m pr : lasso_check_ref xops (set_max_iterations m pr) = match lasso_check_ref xops pr with Ok _ => Ok (set_max_iterations m pr) | Err e => Err e end.
Proof. unfold lasso_check_ref, set_max_iterations. cbn [p_alpha p_tolerance p_K p_ws_start_size p_shape]. repeat (match goal with |- context [if ?b then _ else _] => destruct b end; auto). Qed.
Lemma chk_iter_e m pr : elastic_net_check_ref xops (set_max_iterations m pr) = match elastic_net_check_ref xops pr with Ok _ => Ok (set_max_iterations m pr) | Err e => Err e end.
Proof. unfold elastic_net_check_ref, set_max_iterations. cbn [p_alpha p_tolerance p_K p_ws_start_size p_shape]. repeat (match goal with |- context [if ?b then _ else _] => destruct b end; auto). Qed.
Lemma chk_iter_m m pr : mcp_check_ref xops (set_max_iterations m pr) = match mcp_check_ref xops pr with Ok _ => Ok (set_max_iterations m pr) | Err e => Err e end.
Proof. unfold mcp_check_ref, set_max_iterations. cbn [p_alpha p_tolerance p_K p_ws_start_size p_shape]. repeat (match goal with |- context [if ?b then _ else _] => destruct b end; auto). Qed.
Lemma chk_iter_bm m pr : block_mcp_check_ref xops (set_max_iterations m pr) = match block_mcp_check_ref xops pr with Ok _ => Ok (set_max_iterations m pr) | Err e => Err e end.
Proof. unfold block_mcp_check_ref, set_max_iterations. cbn [p_alpha p_tolerance p_K p_ws_start_size p_shape]. repeat (match goal with |- context [if ?b then _ else _] => destruct b end; auto). Qed.

Lemma single_run X y l k s fit : single_fit srt n p X y l k s fit ->
  rejected fit \/ (pen1_range k /\ forall m, fit m = go1 srt p s (prob1 l k n p X y) m).
Proof.
  intros HF. inversion HF as [X' y' k' pr t Ht Hc|E cc y' k' pr t HC HR Ht Hc|X' y' k' s' d t Ht Hr|E cc y' k' s' d t HC HR Ht Hr|X' y' k' s' d t Ht Hr|E cc y' k' s' d t HC HR Ht Hr]; subst; clear HF.
  - destruct k as [a|a r|a g]; cbn [carries estimator_dense pen1_range] in *; unfold fit_unchecked.
    + destruct (lasso_check_ref xops pr) as [c'|e'] eqn:Ek; [right|left; exists e'; intros m; rewrite chk_iter_l, Ek; auto].
      destruct (lasso_ok _ _ a Ek Hc) as (_ & Ha). split; auto. intros m. rewrite chk_iter_l, Ek. unfold go1, ok. f_equal. unfold lasso_fit_dense. cbn [set_max_iterations p_alpha]. rewrite Hc.
      apply (quad_dense_fit srt VS n p Hn _ _ _ _ _ (l1_pen_ok a) y t Ht).
    + destruct Hc as [Hc Hc']. destruct (elastic_net_check_ref xops pr) as [c'|e'] eqn:Ek; [right|left; exists e'; intros m; rewrite chk_iter_e, Ek; auto].
      destruct (enet_ok _ _ a r Ek Hc Hc') as (_ & Ha & Hr). split; auto. intros m. rewrite chk_iter_e, Ek. unfold go1, ok. f_equal. unfold elastic_net_fit_dense. cbn [set_max_iterations p_alpha p_shape]. rewrite Hc, Hc'.
      apply (quad_dense_fit srt VS n p Hn _ _ _ _ _ (l1l2_pen_ok a r Ha Hr) y t Ht).
    + destruct Hc as [Hc Hc']. destruct (mcp_check_ref xops pr) as [c'|e'] eqn:Ek; [right|left; exists e'; intros m; rewrite chk_iter_m, Ek; auto].
      destruct (mcp_ok _ _ a g Ek Hc Hc') as (_ & Ha & Hg). assert (Hg' : 0 < g) by lra. split; auto. intros m. rewrite chk_iter_m, Ek. unfold go1, ok. f_equal. unfold mcp_fit_dense. cbn [set_max_iterations p_alpha p_shape]. rewrite Hc, Hc'.
      apply (quad_dense_fit srt VS n p Hn _ _ _ _ _ (mcp_pen_ok a g Hg') y t Ht).
  - destruct k as [a|a r|a g]; cbn [carries estimator_sparse pen1_range] in *; unfold fit_unchecked.
    + destruct (lasso_check_ref xops pr) as [c'|e'] eqn:Ek; [right|left; exists e'; intros m; rewrite chk_iter_l, Ek; auto].
      destruct (lasso_ok _ _ a Ek Hc) as (_ & Ha). split; auto. intros m. rewrite chk_iter_l, Ek. unfold go1, ok. f_equal. unfold lasso_fit_sparse. cbn [set_max_iterations p_alpha]. rewrite Hc.
      apply (quad_sparse_fit srt VS n p Hn _ _ _ _ _ (l1_pen_ok a) y t Ht) with (E := E); auto.
    + destruct Hc as [Hc Hc']. destruct (elastic_net_check_ref xops pr) as [c'|e'] eqn:Ek; [right|left; exists e'; intros m; rewrite chk_iter_e, Ek; auto].
      destruct (enet_ok _ _ a r Ek Hc Hc') as (_ & Ha & Hr). split; auto. intros m. rewrite chk_iter_e, Ek. unfold go1, ok. f_equal. unfold elastic_net_fit_sparse. cbn [set_max_iterations p_alpha p_shape]. rewrite Hc, Hc'.
      apply (quad_sparse_fit srt VS n p Hn _ _ _ _ _ (l1l2_pen_ok a r Ha Hr) y t Ht) with (E := E); auto.
    + destruct Hc as [Hc Hc']. destruct (mcp_check_ref xops pr) as [c'|e'] eqn:Ek; [right|left; exists e'; intros m; rewrite chk_iter_m, Ek; auto].
      destruct (mcp_ok _ _ a g Ek Hc Hc') as (_ & Ha & Hg). assert (Hg' : 0 < g) by lra. split; auto. intros m. rewrite chk_iter_m, Ek. unfold go1, ok. f_equal. unfold mcp_fit_sparse. cbn [set_max_iterations p_alpha p_shape]. rewrite Hc, Hc'.
      apply (quad_sparse_fit srt VS n p Hn _ _ _ _ _ (mcp_pen_ok a g Hg') y t Ht) with (E := E); auto.
  - right. split; auto. intros m. unfold go1. f_equal. destruct k as [a|a r|a g]; cbn [solver_call pen1_range] in *; unfold solve.
    + apply (quad_dense_fit srt VS n p Hn _ _ _ _ _ (l1_pen_ok a) y t Ht).
    + destruct Hr. apply (quad_dense_fit srt VS n p Hn _ _ _ _ _ (l1l2_pen_ok a r ltac:(auto) ltac:(auto)) y t Ht).
    + destruct Hr. apply (quad_dense_fit srt VS n p Hn _ _ _ _ _ (mcp_pen_ok a g ltac:(auto)) y t Ht).
  - right. split; auto. intros m. unfold go1. f_equal. destruct k as [a|a r|a g]; cbn [solver_call pen1_range] in *; unfold solve.
    + apply (quad_sparse_fit srt VS n p Hn _ _ _ _ _ (l1_pen_ok a) y t Ht) with (E := E); auto.
    + destruct Hr. apply (quad_sparse_fit srt VS n p Hn _ _ _ _ _ (l1l2_pen_ok a r ltac:(auto) ltac:(auto)) y t Ht) with (E := E); auto.
    + destruct Hr. apply (quad_sparse_fit srt VS n p Hn _ _ _ _ _ (mcp_pen_ok a g ltac:(auto)) y t Ht) with (E := E); auto.
  - right. split; auto. intros m. unfold go1. f_equal. destruct k as [a|a r|a g]; cbn [solver_call pen1_range] in *; unfold solve.
    + apply (log_dense_fit srt VS n p Hn _ _ _ _ _ (l1_pen_ok a) y t Ht).
    + destruct Hr. apply (log_dense_fit srt VS n p Hn _ _ _ _ _ (l1l2_pen_ok a r ltac:(auto) ltac:(auto)) y t Ht).
    + destruct Hr. apply (log_dense_fit srt VS n p Hn _ _ _ _ _ (mcp_pen_ok a g ltac:(auto)) y t Ht).
  - right. split; auto. intros m. unfold go1. f_equal. destruct k as [a|a r|a g]; cbn [solver_call pen1_range] in *; unfold solve.
    + apply (log_sparse_fit srt VS n p Hn _ _ _ _ _ (l1_pen_ok a) y t Ht) with (E := E); auto.
    + destruct Hr. apply (log_sparse_fit srt VS n p Hn _ _ _ _ _ (l1l2_pen_ok a r ltac:(auto) ltac:(auto)) y t Ht) with (E := E); auto.
    + destruct Hr. apply (log_sparse_fit srt VS n p Hn _ _ _ _ _ (mcp_pen_ok a g ltac:(auto)) y t Ht) with (E := E); auto.
Qed.

Lemma chk_iter_ml m pr : mt_lasso_check_ref xops (set_max_iterations m pr) = match mt_lasso_check_ref xops pr with Ok _ => Ok (set_max_iterations m pr) | Err e => Err e end.
Proof. apply chk_iter_l. Qed.
Lemma chk_iter_me m pr : mt_elastic_net_check_ref xops (set_max_iterations m pr) = match mt_elastic_net_check_ref xops pr with Ok _ => Ok (set_max_iterations m pr) | Err e => Err e end.
Proof. unfold mt_elastic_net_check_ref, set_max_iterations. cbn [p_alpha p_tolerance p_K p_ws_start_size p_shape]. repeat (match goal with |- context [if ?b then _ else _] => destruct b end; auto). Qed.
Lemma multi_run T X Y k s fit : multi_fit srt n p T X Y k s fit ->
  penT_range k /\ (rejected fit \/ forall m, fit m = goT srt p T s (probT k n p T X Y) m).
Proof.
  intros HF. inversion HF as [X' y' k' pr t Ht Hc Hr|E cc y' k' pr t HC HR Ht Hc Hr|X' y' k' s' d t Ht Hr|E cc y' k' s' d t HC HR Ht Hr]; subst; clear HF; (split; [exact Hr|]).
  - destruct k as [a|a r|a g]; cbn [carries_mt mt_estimator_dense penT_range] in *; unfold fit_unchecked.
    + destruct (mt_lasso_check_ref xops pr) as [c'|e'] eqn:Ek; [right|left; exists e'; intros m; rewrite chk_iter_ml, Ek; auto].
      intros m. rewrite chk_iter_ml, Ek. unfold goT, ok. f_equal. unfold mt_lasso_fit_dense. cbn [set_max_iterations p_alpha]. rewrite Hc.
      apply (mt_dense_fit srt VS n p Hn T _ _ _ _ _ (l21_pen_ok T a Hr) Y t Ht).
    + destruct Hc as [Hc Hc'], Hr as (Ha & Hr & Har). destruct (mt_elastic_net_check_ref xops pr) as [c'|e'] eqn:Ek; [right|left; exists e'; intros m; rewrite chk_iter_me, Ek; auto].
      intros m. rewrite chk_iter_me, Ek. unfold goT, ok. f_equal. unfold mt_elastic_net_fit_dense. cbn [set_max_iterations p_alpha p_shape]. rewrite Hc, Hc'.
      apply (mt_dense_fit srt VS n p Hn T _ _ _ _ _ (bl1l2_pen_ok T a r Ha Hr Har) Y t Ht).
    + destruct Hc as [Hc Hc'], Hr as (Ha & Hg). destruct (block_mcp_check_ref xops pr) as [c'|e'] eqn:Ek; [right|left; exists e'; intros m; rewrite chk_iter_bm, Ek; auto].
      intros m. rewrite chk_iter_bm, Ek. unfold goT, ok. f_equal. unfold block_mcp_fit_dense. cbn [set_max_iterations p_alpha p_shape]. rewrite Hc, Hc'.
      apply (mt_dense_fit srt VS n p Hn T _ _ _ _ _ (bmcp_pen_ok T a g Ha Hg) Y t Ht).
  - destruct k as [a|a r|a g]; cbn [carries_mt mt_estimator_sparse penT_range] in *; unfold fit_unchecked.
    + destruct (mt_lasso_check_ref xops pr) as [c'|e'] eqn:Ek; [right|left; exists e'; intros m; rewrite chk_iter_ml, Ek; auto].
      intros m. rewrite chk_iter_ml, Ek. unfold goT, ok. f_equal. unfold mt_lasso_fit_sparse. cbn [set_max_iterations p_alpha]. rewrite Hc.
      apply (mt_sparse_fit srt VS n p Hn T _ _ _ _ _ (l21_pen_ok T a Hr) Y t Ht) with (E := E); auto.
    + destruct Hc as [Hc Hc'], Hr as (Ha & Hr & Har). destruct (mt_elastic_net_check_ref xops pr) as [c'|e'] eqn:Ek; [right|left; exists e'; intros m; rewrite chk_iter_me, Ek; auto].
      intros m. rewrite chk_iter_me, Ek. unfold goT, ok. f_equal. unfold mt_elastic_net_fit_sparse. cbn [set_max_iterations p_alpha p_shape]. rewrite Hc, Hc'.
      apply (mt_sparse_fit srt VS n p Hn T _ _ _ _ _ (bl1l2_pen_ok T a r Ha Hr Har) Y t Ht) with (E := E); auto.
    + destruct Hc as [Hc Hc'], Hr as (Ha & Hg). destruct (block_mcp_check_ref xops pr) as [c'|e'] eqn:Ek; [right|left; exists e'; intros m; rewrite chk_iter_bm, Ek; auto].
      intros m. rewrite chk_iter_bm, Ek. unfold goT, ok. f_equal. unfold block_mcp_fit_sparse. cbn [set_max_iterations p_alpha p_shape]. rewrite Hc, Hc'.
      apply (mt_sparse_fit srt VS n p Hn T _ _ _ _ _ (bmcp_pen_ok T a g Ha Hg) Y t Ht) with (E := E); auto.
  - right. intros m. unfold goT. f_equal. destruct k as [a|a r|a g]; cbn [mt_solver_call penT_range] in *; unfold solve_multi_task.
    + apply (mt_dense_fit srt VS n p Hn T _ _ _ _ _ (l21_pen_ok T a Hr) Y t Ht).
    + destruct Hr as (Ha & Hr & Har). apply (mt_dense_fit srt VS n p Hn T _ _ _ _ _ (bl1l2_pen_ok T a r Ha Hr Har) Y t Ht).
    + destruct Hr as (Ha & Hg). apply (mt_dense_fit srt VS n p Hn T _ _ _ _ _ (bmcp_pen_ok T a g Ha Hg) Y t Ht).
  - right. intros m. unfold goT. f_equal. destruct k as [a|a r|a g]; cbn [mt_solver_call penT_range] in *; unfold solve_multi_task.
    + apply (mt_sparse_fit srt VS n p Hn T _ _ _ _ _ (l21_pen_ok T a Hr) Y t Ht) with (E := E); auto.
    + destruct Hr as (Ha & Hr & Har). apply (mt_sparse_fit srt VS n p Hn T _ _ _ _ _ (bl1l2_pen_ok T a r Ha Hr Har) Y t Ht) with (E := E); auto.
    + destruct Hr as (Ha & Hg). apply (mt_sparse_fit srt VS n p Hn T _ _ _ _ _ (bmcp_pen_ok T a g Ha Hg) Y t Ht) with (E := E); auto.
Qed.
Lemma probT_obj T k X Y W Z : fitted (probT k n p T X Y) (W, Z) -> obj (probT k n p T X Y) (W, Z) = objective_mt (quad_loss_mt n T Y) p T X (penT k) W.
Proof.
  intros HF. unfold obj, robj, objective_mt. cbn [fst snd probT mtP pp pf ppv]. f_equal. unfold quad_loss_mt. f_equal. apply Sum_ext. intros i Hi. apply Sum_ext. intros t Ht. f_equal. f_equal. apply (HF i t Hi Ht).
Qed.
Lemma probT_obj0 T k X Y : obj (probT k n p T X Y) (fun _ _ => 0, fun _ _ => 0) = objective_mt (quad_loss_mt n T Y) p T X (penT k) (fun _ _ => 0).
Proof. apply probT_obj. apply start_fitted. Qed.
Lemma probT_dist T k X Y W Z j : (j < p)%nat -> fitted (probT k n p T X Y) (W, Z) ->
  rdist (probT k n p T X Y) W Z j = distT k (tab T (W j)) (tab T (gq n X Y (lin_mt p X W) j)).
Proof.
  intros Hj HF. unfold rdist, row. cbn [probT mtP pdist pT pg]. f_equal. apply tab_ext. intros t Ht. unfold gq. f_equal. f_equal. apply Sum_ext. intros i Hi. f_equal. f_equal. apply (HF i t Hi Ht).
Qed.
Lemma mt_lasso_stationary_iff T a X Y W eps : 0 < a ->
  (stationary_mt eps (quad_loss_mt n T Y) p T X (penT (MtLassoPen a)) W <-> forall j, (j < p)%nat -> r_l21_score a (tab T (W j)) (tab T (gq n X Y (lin_mt p X W) j)) <= eps).
Proof.
  intros Ha. assert (SC := l21_scores T a ltac:(lra)). split.
  - intros H j Hj. destruct (H j Hj) as (d & (g & Dg & Hd) & Hle).
    assert (Eg : forall t, (t < T)%nat -> g t = gq n X Y (lin_mt p X W) j t) by (intros t Ht; eapply uniqueness_limite; [apply Dg; auto|apply quad_mt_deriv; auto]).
    assert (Q := SC (tab T (W j)) (tab T (gq n X Y (lin_mt p X W) j)) (tab_length _ _) (tab_length _ _)). rewrite vneg_tab in Q.
    change (map (fun t => - g t) (seq 0 T)) with (tab T (fun t => - g t)) in Hd. rewrite (tab_ext T (fun t => - g t) (fun t => - gq n X Y (lin_mt p X W) j t)) in Hd by (intros; rewrite Eg; auto).
    rewrite (is_vdist_unique _ _ _ _ Q Hd). auto.
  - intros H j Hj. exists (r_l21_score a (tab T (W j)) (tab T (gq n X Y (lin_mt p X W) j))). split; auto. exists (gq n X Y (lin_mt p X W) j).
    split; [intros; apply quad_mt_deriv; auto|]. assert (Q := SC (tab T (W j)) (tab T (gq n X Y (lin_mt p X W) j)) (tab_length _ _) (tab_length _ _)). rewrite vneg_tab in Q. exact Q.
Qed.
Lemma xm_inj T W W' : xm p T W = xm p T W' -> forall j t, (j < p)%nat -> (t < T)%nat -> W j t = W' j t.
Proof.
  intros E j t Hj Ht. unfold xm in E. injection E as E. apply (f_equal (fun l => nth t (nth j l []) NaN)) in E. rewrite !nth_tab in E by auto. injection E. auto.
Qed.

(** *** what holds for every step size *)
Lemma inner_shape P tol kmax K acc ws : ws_ok P ws -> forall es W Z H st, rinner P tol kmax K acc ws es W Z H = Ret st ->
  (fitted P (W, Z) -> fitted P st) /\ (dead_zero P W -> hist_zero P ws H -> dead_zero P (fst st)).
Proof.
  intros Hws. induction es as [|e es IH]; intros W Z H st E; [injection E as <-; auto|].
  cbn [rinner] in E. assert (EC := fun st H' => epoch_cases P W Z H ws e K acc st H' Hws).
  destruct (fold_left (rstep P) ws (W, Z)) as [W1 Z1]. destruct (if acc then _ else _) as [[[W2 Z2] H2]|] eqn:E2; cbn [bind] in E; [|discriminate].
  destruct (EC _ _ eq_refl) as (_ & F & _ & _ & DZ).
  assert (HR : st = (W2, Z2) \/ rinner P tol kmax K acc ws es W2 Z2 H2 = Ret st).
  { cbv zeta in E. destruct (_ && _); auto. destruct (_ =? _)%nat; [destruct (xle _ _)|destruct (xlt _ _)]; auto; injection E as <-; auto. }
  destruct HR as [->|HR].
  - split; auto. intros HD HH. apply DZ; auto.
  - destruct (IH _ _ _ _ HR) as (F' & DZ'). split; auto. intros HD HH. destruct DZ as [D1 D2]; auto.
Qed.
Lemma solve_shape P tol K acc ws0 me it st : rsolve P srt tol K acc ws0 me it = Ret st -> fitted P st /\ dead_zero P (fst st).
Proof.
  intros E. unfold rsolve in E. assert (A : forall it W Z st, router P srt tol K acc (Nat.min ws0 (pp P)) me it W Z = Ret st ->
    (fitted P (W, Z) -> fitted P st) /\ (dead_zero P W -> dead_zero P (fst st))).
  { clear - VS. intros it. induction it as [|it IH]; intros W Z st E; [injection E as <-; auto|]. cbn [router] in E.
    destruct (xle _ _); [injection E as <-; auto|].
    destruct (rsel_ok P srt VS W Z (Nat.min ws0 (pp P)) (Nat.le_min_r _ _)) as (ws & Es & ND & Hws & HLn). rewrite Es in E. cbn [bind] in E.
    destruct (rinner _ _ _ _ _ _ _ _ _ _) as [[W' Z']|] eqn:Ei; cbn [bind] in E; [|discriminate].
    destruct (inner_shape P _ _ _ _ _ (conj ND Hws) _ _ _ _ _ Ei) as (F & D). destruct (IH _ _ _ E) as (F' & D').
    split; auto. intros HD. apply D'; auto. apply D; auto. intros a k t _ _ _. reflexivity. }
  destruct (A _ _ _ _ E) as [A1 A2]. split; [apply A1, start_fitted|apply A2]. intros ? ? ? ? ?. reflexivity.
Qed.
(** *** consequences *)
Lemma go1_ret s PB m v : go1 srt p s PB m = Ret (Ok v) -> exists st, rsolve PB srt (s_tolerance s) (s_K s) (s_use_acceleration s) (s_ws_start_size s) (s_max_epochs s) m = Ret st /\ v = vW p (fst st).
Proof.
  unfold go1, ok, run1. destruct (rsolve _ _ _ _ _ _ _ _) as [st|]; cbn [bind]; [|discriminate]. intros E. injection E as <-. exists st. auto.
Qed.
Lemma goT_ret T s PB m v : goT srt p T s PB m = Ret (Ok v) -> exists st, rsolve PB srt (s_tolerance s) (s_K s) (s_use_acceleration s) (s_ws_start_size s) (s_max_epochs s) m = Ret st /\ v = xm p T (fst st).
Proof.
  unfold goT, ok, runT. destruct (rsolve _ _ _ _ _ _ _ _) as [st|]; cbn [bind]; [|discriminate]. intros E. injection E as <-. exists st. auto.
Qed.
Lemma not_rejected {A E} (fit : nat -> res (result A E)) m v : fit m = Ret (Ok v) -> ~ rejected fit.
Proof. intros H (e & He). rewrite He in H. discriminate. Qed.

Section OneAny.
Variables (X : rmat) (y : nat -> R) (l : single_loss) (k : single_pen) (s : solver xr) (fit : nat -> res (result (list xr) (estimator_error xr))).
Hypotheses (HF : single_fit srt n p X y l k s fit).
Let PB := prob1 l k n p X y.
Lemma inv0 m v : fit m = Ret (Ok v) -> pen1_range k /\ exists W Z, rsolve PB srt (s_tolerance s) (s_K s) (s_use_acceleration s) (s_ws_start_size s) (s_max_epochs s) m = Ret (W, Z) /\
  v = xv p (fun j => W j 0%nat) /\ fitted PB (W, Z) /\ dead_zero PB W.
Proof.
  intros Ev. destruct (single_run X y l k s fit HF) as [Hrej|[Hr Hgo]]; [exfalso; eapply not_rejected; eauto|]. split; auto.
  rewrite Hgo in Ev. apply go1_ret in Ev as ([W Z] & Er & ->). exists W, Z. split; [exact Er|]. split; [reflexivity|].
  apply (solve_shape PB) in Er; auto.
Qed.
Lemma c39_single m v j : (j < p)%nat -> (forall i, (i < n)%nat -> X i j = 0) -> fit m = Ret (Ok v) -> exists w, v = xv p w /\ w j = 0.
Proof.
  intros Hj Hz Ev. destruct (inv0 m v Ev) as (_ & W & Z & _ & -> & _ & Hd). eexists. split; [reflexivity|]. cbv beta. apply Hd.
  - unfold PB. rewrite prob1_p. auto.
  - unfold PB. rewrite prob1_T. auto.
  - unfold PB. rewrite prob1_L. apply curv_dead; auto.
Qed.
Lemma c29_single tol m m' w : s_tolerance s = Fin tol -> (m <= m')%nat -> fit m = Ret (Ok (xv p w)) -> stationary tol (loss1 l n y) p X (pen1 k) w ->
  fit m' = Ret (Ok (xv p w)).
Proof.
  intros Et Hm Ev Hst. destruct (inv0 m _ Ev) as (Hr & W & Z & Er & Ew & Hf & _).
  destruct (single_run X y l k s fit HF) as [Hrej|[_ Hgo]]; [exfalso; eapply not_rejected; eauto|]. rewrite Ew. rewrite Hgo. unfold go1, run1. fold PB. rewrite Et in *.
  replace m' with (m + (m' - m))%nat by lia. rewrite (solve_final PB srt tol _ _ _ _ _ _ _ Er); [reflexivity|].
  apply done_stationary; auto. eapply stationary_ext; [auto|apply xv_inj; exact Ew|exact Hst].
Qed.
End OneAny.
Section ManyAny.
Variables (T : nat) (X Y : rmat) (k : multi_pen) (s : solver xr) (fit : nat -> res (result (mat xr) (estimator_error xr))).
Hypotheses (HF : multi_fit srt n p T X Y k s fit).
Let PB := probT k n p T X Y.
Lemma c39_multi m v j : (j < p)%nat -> (forall i, (i < n)%nat -> X i j = 0) -> fit m = Ret (Ok v) -> exists W, v = xm p T W /\ forall t, (t < T)%nat -> W j t = 0.
Proof.
  intros Hj Hz Ev. destruct (multi_run T X Y k s fit HF) as [_ [Hrej|Hg]]; [exfalso; eapply not_rejected; eauto|].
  rewrite Hg in Ev. apply goT_ret in Ev as ([W Z] & Er & ->). apply (solve_shape (probT k n p T X Y)) in Er; auto. destruct Er as [_ Hd].
  exists W. split; [reflexivity|]. intros t Ht. apply Hd; auto.
  change (pL (probT k n p T X Y) j) with (Lq n X j). rewrite <- curv_Lq. apply curv_dead; auto.
Qed.
End ManyAny.
Section One.
Variables (X : rmat) (y : nat -> R) (l : single_loss) (k : single_pen) (s : solver xr) (fit : nat -> res (result (list xr) (estimator_error xr))).
Hypotheses (HF : single_fit srt n p X y l k s fit) (Hy : targets_ok l n y) (HS : steps_ok Rle k l n p X).
Let PB := prob1 l k n p X y.
Local Notation objf := (objective (loss1 l n y) p X (pen1 k)).
Lemma inv1 m v : fit m = Ret (Ok v) -> pen1_range k /\ exists W Z, rsolve PB srt (s_tolerance s) (s_K s) (s_use_acceleration s) (s_ws_start_size s) (s_max_epochs s) m = Ret (W, Z) /\
  v = xv p (fun j => W j 0%nat) /\ fitted PB (W, Z) /\ dead_zero PB W /\ objf (fun j => W j 0%nat) <= objf (fun _ => 0).
Proof.
  intros Ev. destruct (single_run X y l k s fit HF) as [Hrej|[Hr Hgo]]; [exfalso; eapply not_rejected; eauto|]. split; auto.
  rewrite Hgo in Ev. apply go1_ret in Ev as ([W Z] & Er & ->). exists W, Z. split; [exact Er|]. split; [reflexivity|].
  destruct (solve_inv PB (okstep1 k) (c1 k) srt VS (prob1_data l k X y Hy) (prob1_pen l k X y Hr)) with (2 := Er) as (HO & Hf & Hd).
  - unfold PB. rewrite prob1_p. apply prob1_steps; auto.
  - split; auto. split; auto. unfold PB in HO. rewrite prob1_obj, prob1_obj0 in HO by auto. exact HO.
Qed.
Lemma c25_single m v : fit m = Ret (Ok v) -> exists w, v = xv p w /\ objf w <= objf (fun _ => 0).
Proof. intros Ev. destruct (inv1 m v Ev) as (_ & W & Z & _ & -> & _ & _ & HO). eauto. Qed.
Lemma objf_ext w w' : (forall j, (j < p)%nat -> w j = w' j) -> objf w = objf w'.
Proof.
  intros E. unfold objective. f_equal; [|apply Sum_ext; intros; rewrite E; auto].
  assert (EL : forall i, lin p X w i = lin p X w' i) by (intros; apply Sum_ext; intros; rewrite E; auto).
  destruct l; cbn [loss1]; unfold quad_loss, logistic_loss; f_equal; apply Sum_ext; intros; rewrite EL; auto.
Qed.
Lemma c26_single m m' v' : (m <= m')%nat -> fit m' = Ret (Ok v') -> exists w w', fit m = Ret (Ok (xv p w)) /\ v' = xv p w' /\ objf w' <= objf w.
Proof.
  intros Hm Ev. destruct (inv1 m' v' Ev) as (Hr & W' & Z' & Er & -> & Hf & _ & _). replace m' with (m + (m' - m))%nat in Er by lia.
  destruct (single_run X y l k s fit HF) as [Hrej|[_ Hgo]]; [exfalso; eapply not_rejected; eauto|].
  destruct (solve_more PB (okstep1 k) (c1 k) srt VS (prob1_data l k X y Hy) (prob1_pen l k X y Hr)) with (2 := Er) as ([W Z] & E1 & _ & HO).
  - unfold PB. rewrite prob1_p. apply prob1_steps; auto.
  - assert (Ev1 : fit m = Ret (Ok (xv p (fun j => W j 0%nat)))) by (rewrite Hgo; unfold go1, run1; fold PB; rewrite E1; reflexivity).
    destruct (solve_inv PB (okstep1 k) (c1 k) srt VS (prob1_data l k X y Hy) (prob1_pen l k X y Hr)) with (2 := E1) as (_ & Hf1 & _).
    + unfold PB. rewrite prob1_p. apply prob1_steps; auto.
    + exists (fun j => W j 0%nat), (fun j => W' j 0%nat). split; auto. split; auto. unfold PB in HO. rewrite !prob1_obj in HO by auto. exact HO.
Qed.
Lemma prob1_lip : exists H, 0 <= H /\ forall Z i j d, (i < pp PB)%nat -> (j < pp PB)%nat -> norm2 (vminus (row PB (pg PB (shift (pX PB) Z i d)) j) (row PB (pg PB Z) j)) <= H * norm2 (tab (pT PB) d).
Proof.
  exists (Hbound n p X). split; [apply Hbound_nonneg; auto|]. unfold PB. rewrite prob1_p, prob1_X, prob1_T. intros Z i j d Hi Hj. unfold targets_ok in Hy. destruct l.
  - apply (quad_lip n p 1 X (fun i _ => y i) (lprox (prox1 k)) (lpv (pen1 k)) (ldist (dist1 k))); auto.
  - apply (log_lip n p X y (prox1 k) (pen1 k) (dist1 k)); auto.
Qed.
Lemma prob1_c j : pen1_range k -> steps_ok Rlt k l n p X -> (j < p)%nat -> live PB j -> 0 < c1 k (1 / pL PB j).
Proof.
  intros Hr Hs Hj Hl. unfold live, PB in *. rewrite prob1_L in *. pose proof (curv_nonneg l X j) as Hc. assert (0 < 1 / curvature l n X j) by (apply Rdiv_lt_0_compat; lra).
  destruct k as [a|a r|a g]; cbn [c1 pen1_range steps_ok] in *; [lra| |].
  - assert (0 <= 1 / curvature l n X j * (1 - r) * a) by (apply Rmult_le_pos; [apply Rmult_le_pos|]; lra). lra.
  - assert (Q := Hs j Hj (curv_live l X j Hl)). destruct (step_lt g (curvature l n X j) ltac:(lra) Q) as [_ Q2]. apply Rlt_Rminus. apply Rmult_lt_reg_r with g; [lra|]. unfold Rdiv at 1. rewrite Rmult_assoc, Rinv_l by lra. lra.
Qed.
Lemma prob1_moves j : pen1_range k -> steps_ok Rlt k l n p X -> (j < p)%nat -> live PB j -> exists M, zero_moves (pT PB) (pprox PB) (pdist PB) (pL PB j) M.
Proof.
  intros Hr Hs Hj Hl. unfold live in Hl. pose proof (curv_nonneg l X j) as Hc.
  assert (HL : 0 < pL PB j) by (unfold PB in *; rewrite prob1_L in *; lra).
  assert (Hg : match k with McpPen _ g => 1 / pL PB j < g | _ => True end).
  { unfold PB in *. rewrite prob1_L in *. destruct k as [a|a r|a g]; auto. cbn [steps_ok] in Hs. apply (step_lt g (curvature l n X j)); [lra|]. apply Hs; auto. apply (curv_live l); auto. }
  assert (Q : exists M, zero_moves 1 (lprox (prox1 k)) (ldist (dist1 k)) (pL PB j) M).
  { destruct k as [a|a r|a g]; cbn [pen1_range prox1 dist1] in *.
    - exists (pL PB j). apply l1_moves; auto.
    - exists (pL PB j + (1 - r) * a). apply l1l2_moves; tauto.
    - exists (pL PB j). apply mcp_moves; tauto. }
  destruct Q as (M & Q). exists M. unfold PB in *. destruct l; exact Q.
Qed.
Lemma calm_of acc K me : calm_schedule acc K me -> calm acc K (seq 0 me).
Proof.
  intros [H|H]; [left; auto|right]. intros e He Hc. apply in_seq in He. apply H; [lia|]. destruct Hc as [Hc|Hc]; [left; auto|right].
  destruct me as [|m']; [lia|]. rewrite seq_S, last_last in Hc. lia.
Qed.
Lemma c27_single0 tol : accepted fit -> s_tolerance s = Fin tol -> 0 < tol -> (1 <= s_ws_start_size s)%nat -> (1 <= s_max_epochs s)%nat ->
  calm_schedule (s_use_acceleration s) (s_K s) (s_max_epochs s) -> accel_safe (s_use_acceleration s) (s_K s) (Nat.min (s_ws_start_size s) p) (s_max_epochs s) ->
  steps_ok Rlt k l n p X -> settles p (stationary tol (loss1 l n y) p X (pen1 k)) fit.
Proof.
  intros Hacc Et Htol Hw Hme Hcal Hsafe Hlt. destruct (single_run X y l k s fit HF) as [(e & He)|[Hr Hgo]]; [exfalso; apply (Hacc 0%nat e); auto|].
  destruct (solve_conv PB (okstep1 k) (c1 k) srt VS (prob1_data l k X y Hy) (prob1_pen l k X y Hr)) with (tol := tol) (K := s_K s) (acc := s_use_acceleration s) (ws0 := s_ws_start_size s) (me := s_max_epochs s) as (N & [W Z] & Hd & Hall); auto.
  - unfold PB. rewrite prob1_p. apply prob1_steps; auto.
  - unfold PB. destruct l; apply (pen1_scores k Hr).
  - apply prob1_lip.
  - unfold PB at 1. rewrite prob1_p. intros j Hj Hl. apply prob1_c; auto.
  - unfold PB at 1. rewrite prob1_p. intros j Hj Hl. apply prob1_moves; auto.
  - apply calm_of; auto.
  - unfold PB. rewrite prob1_p, prob1_T, Nat.mul_1_r. auto.
  - exists N, (fun j => W j 0%nat). split.
    + assert (EN := Hall N (le_n _)). destruct (solve_inv PB (okstep1 k) (c1 k) srt VS (prob1_data l k X y Hy) (prob1_pen l k X y Hr)) with (2 := EN) as (_ & Hf & _).
      * unfold PB. rewrite prob1_p. apply prob1_steps; auto.
      * eapply done_stationary; eauto.
    + intros m Hm. rewrite Hgo. unfold go1, run1. fold PB. rewrite Et, Hall by auto. reflexivity.
Qed.
End One.
Lemma steps_lt_le k l X : steps_ok Rlt k l n p X -> steps_ok Rle k l n p X.
Proof. destruct k; auto. cbn [steps_ok]. unfold gamma_ok. intros H j Hj Hx. left. auto. Qed.
Lemma c27_single X y l k s fit : single_fit srt n p X y l k s fit -> targets_ok l n y -> steps_ok Rlt k l n p X ->
  forall tol, accepted fit -> s_tolerance s = Fin tol -> 0 < tol -> (1 <= s_ws_start_size s)%nat -> (1 <= s_max_epochs s)%nat ->
  calm_schedule (s_use_acceleration s) (s_K s) (s_max_epochs s) -> accel_safe (s_use_acceleration s) (s_K s) (Nat.min (s_ws_start_size s) p) (s_max_epochs s) ->
  settles p (stationary tol (loss1 l n y) p X (pen1 k)) fit.
Proof. intros HF Hy HS tol H1 H2 H3 H4 H5 H6 H7. eapply c27_single0; eauto. apply steps_lt_le; auto. Qed.


Section Many.
Variables (T : nat) (X Y : rmat) (k : multi_pen) (s : solver xr) (fit : nat -> res (result (mat xr) (estimator_error xr))).
Hypotheses (HF : multi_fit srt n p T X Y k s fit) (HS : steps_ok_mt Rle k n p X).
Let PB := probT k n p T X Y.
Local Notation objf := (objective_mt (quad_loss_mt n T Y) p T X (penT k)).
Let Hr : penT_range k := proj1 (multi_run T X Y k s fit HF).
Let Hgo := proj2 (multi_run T X Y k s fit HF).
Let DT : data_theory PB := quad_data n p T X Y (proxT k) (penT k) (distT k) Hn.
Let PT : pen_theory (pT PB) (pprox PB) (ppv PB) (okstepT k) (cT k) := penT_theory k T Hr.
Let HL : forall j, (j < pp PB)%nat -> pL PB j <> 0 -> okstepT k (1 / pL PB j) := probT_steps k T X Y HS.
Lemma invT m v : fit m = Ret (Ok v) -> exists W Z, rsolve PB srt (s_tolerance s) (s_K s) (s_use_acceleration s) (s_ws_start_size s) (s_max_epochs s) m = Ret (W, Z) /\
  v = xm p T W /\ fitted PB (W, Z) /\ dead_zero PB W /\ objf W <= objf (fun _ _ => 0).
Proof.
  intros Ev. destruct Hgo as [Hrej|Hg]; [exfalso; eapply not_rejected; eauto|].
  rewrite Hg in Ev. apply goT_ret in Ev as ([W Z] & Er & ->). exists W, Z. split; [exact Er|]. split; [reflexivity|].
  destruct (solve_inv PB (okstepT k) (cT k) srt VS DT PT HL _ _ _ _ _ _ _ Er) as (HO & Hf & Hd).
  split; auto. split; auto. unfold PB in HO. rewrite probT_obj, probT_obj0 in HO by auto. exact HO.
Qed.
Lemma c25_multi m v : fit m = Ret (Ok v) -> exists W, v = xm p T W /\ objf W <= objf (fun _ _ => 0).
Proof. intros Ev. destruct (invT m v Ev) as (W & Z & _ & -> & _ & _ & HO). eauto. Qed.
Lemma c26_multi m m' v' : (m <= m')%nat -> fit m' = Ret (Ok v') -> exists W W', fit m = Ret (Ok (xm p T W)) /\ v' = xm p T W' /\ objf W' <= objf W.
Proof.
  intros Hm Ev. destruct (invT m' v' Ev) as (W' & Z' & Er & -> & Hf & _ & _). replace m' with (m + (m' - m))%nat in Er by lia.
  destruct Hgo as [Hrej|Hg]; [exfalso; eapply not_rejected; eauto|].
  destruct (solve_more PB (okstepT k) (cT k) srt VS DT PT HL _ _ _ _ _ _ _ _ Er) as ([W Z] & E1 & _ & HO).
  assert (Ev1 : fit m = Ret (Ok (xm p T W))) by (rewrite Hg; unfold goT, runT; fold PB; rewrite E1; reflexivity).
  destruct (solve_inv PB (okstepT k) (cT k) srt VS DT PT HL _ _ _ _ _ _ _ E1) as (_ & Hf1 & _).
  exists W, W'. split; auto. split; auto. unfold PB in HO. rewrite !probT_obj in HO by auto. exact HO.
Qed.
End Many.
Section ManyLasso.
Variables (T : nat) (X Y : rmat) (a : R) (s : solver xr) (fit : nat -> res (result (mat xr) (estimator_error xr))).
Hypotheses (HF : multi_fit srt n p T X Y (MtLassoPen a) s fit).
Let PB := probT (MtLassoPen a) n p T X Y.
Let Ha : 0 < a := proj1 (multi_run T X Y (MtLassoPen a) s fit HF).
Let Hgo := proj2 (multi_run T X Y (MtLassoPen a) s fit HF).
Let DT : data_theory PB := quad_data n p T X Y (proxT (MtLassoPen a)) (penT (MtLassoPen a)) (distT (MtLassoPen a)) Hn.
Let PT : pen_theory (pT PB) (pprox PB) (ppv PB) (okstepT (MtLassoPen a)) (cT (MtLassoPen a)) := penT_theory (MtLassoPen a) T Ha.
Let HL : forall j, (j < pp PB)%nat -> pL PB j <> 0 -> okstepT (MtLassoPen a) (1 / pL PB j) := probT_steps (MtLassoPen a) T X Y I.
Local Notation stat eps := (stationary_mt eps (quad_loss_mt n T Y) p T X (penT (MtLassoPen a))).
Lemma done_stationary_mt W Z eps : fitted PB (W, Z) -> (done PB eps (W, Z) <-> stat eps W).
Proof.
  intros Hf. rewrite mt_lasso_stationary_iff by auto. unfold done. cbn [fst snd]. split; intros H j Hj; specialize (H j Hj); unfold PB in *; rewrite probT_dist in * by auto; auto.
Qed.
Lemma stationary_mt_ext W W' eps : (forall j t, (j < p)%nat -> (t < T)%nat -> W j t = W' j t) -> stat eps W -> stat eps W'.
Proof.
  intros E. rewrite !mt_lasso_stationary_iff by auto. intros H j Hj. specialize (H j Hj).
  rewrite (tab_ext T (W' j) (W j)) by (intros; rewrite E; auto). rewrite (tab_ext T (gq n X Y (lin_mt p X W') j) (gq n X Y (lin_mt p X W) j)); auto.
  intros t Ht. assert (EL : forall i, lin_mt p X W' i t = lin_mt p X W i t) by (intros; apply Sum_ext; intros; rewrite E; auto).
  unfold gq. f_equal. f_equal. apply Sum_ext. intros. rewrite EL. auto.
Qed.
Lemma c29_multi tol m m' W : s_tolerance s = Fin tol -> (m <= m')%nat -> fit m = Ret (Ok (xm p T W)) -> stat tol W -> fit m' = Ret (Ok (xm p T W)).
Proof.
  intros Et Hm Ev Hst. destruct (invT T X Y (MtLassoPen a) s fit HF I m _ Ev) as (W1 & Z & Er & Ew & Hf & _ & _). fold PB in Er, Hf.
  destruct Hgo as [Hrej|Hg]; [exfalso; eapply not_rejected; eauto|]. rewrite Ew. rewrite Hg. unfold goT, runT. fold PB. rewrite Et in *.
  replace m' with (m + (m' - m))%nat by lia. rewrite (solve_final PB srt tol _ _ _ _ _ _ _ Er); [reflexivity|].
  apply done_stationary_mt; auto. eapply stationary_mt_ext; [apply xm_inj; exact Ew|exact Hst].
Qed.
Lemma c27_multi tol : accepted fit -> s_tolerance s = Fin tol -> 0 < tol -> (1 <= s_ws_start_size s)%nat -> (1 <= s_max_epochs s)%nat ->
  calm_schedule (s_use_acceleration s) (s_K s) (s_max_epochs s) -> accel_safe (s_use_acceleration s) (s_K s) (Nat.min (s_ws_start_size s) p * T) (s_max_epochs s) ->
  settles_mt p T (stat tol) fit.
Proof.
  intros Hacc Et Htol Hw Hme Hcal Hsafe. destruct Hgo as [(e & He)|Hg]; [exfalso; apply (Hacc 0%nat e); auto|].
  destruct (solve_conv PB _ _ srt VS DT PT HL) with (tol := tol) (K := s_K s) (acc := s_use_acceleration s) (ws0 := s_ws_start_size s) (me := s_max_epochs s) as (N & [W Z] & Hd & Hall); auto.
  - apply (l21_scores T a). lra.
  - exists (Hbound n p X). split; [apply Hbound_nonneg; auto|]. intros. apply (quad_lip n p T X Y); auto.
  - intros j Hj Hl. cbn [cT]. lra.
  - intros j Hj Hl. exists (pL PB j). apply l21_moves; auto. pose proof (da_L PB DT j). unfold live in Hl. lra.
  - apply calm_of; auto.
  - exists N, W. split.
    + destruct (solve_inv PB _ _ srt VS DT PT HL _ _ _ _ _ _ _ (Hall N (le_n _))) as (_ & Hf & _). eapply done_stationary_mt; eauto.
    + intros m Hm. rewrite Hg. unfold goT, runT. fold PB. rewrite Et, Hall by auto. reflexivity.
Qed.
End ManyLasso.
End S.
