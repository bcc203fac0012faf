(** Proofs about hyperparameters, estimators as solver runs, targets and the Python layer. *)
From Coq Require Import List ZArith Bool Arith Reals Lra Lia.
From Flocq Require Import Core BinarySingleNaN.
From Verif Require Import Ops Arr MUtils MDatasets MDatafits MDatafitsMT MPenalties MBlockPenalties
  MCd MBcd MHyper MEstimators MPython XR IEEE SpecHyper.
Import ListNotations.

Lemma bind_ext {A B} (m : res A) (k k' : A -> res B) : (forall a, k a = k' a) -> bind m k = bind m k'.
Proof. intros H. destruct m; simpl; auto. Qed.

(** ** Validation *)
Section V.
Context {F : Type} (o : FOps F).

Ltac rule H := match goal with
  | |- first_violation ((?P, ?e) :: ?r) _ =>
      first [ apply (fv_hit P e r); solve [auto | apply Nat.leb_le in H; lia]
            | apply (fv_skip P e r); [solve [congruence | apply Nat.leb_gt in H; lia]|] ]
  end.
Ltac steps := repeat match goal with
  | |- context [if ?b then _ else _] => let H := fresh in destruct b eqn:H; simpl; rule H
  end; try apply fv_none.

Lemma lasso_check_spec p :
  first_violation (lasso_rules o p) (error_of (lasso_check_ref o p)) /\
  (forall q, lasso_check_ref o p = Ok q -> q = p).
Proof.
  split.
  - unfold lasso_check_ref, lasso_rules, alpha_rule, common_rules. steps.
  - unfold lasso_check_ref. intros q. repeat match goal with |- context [if ?b then _ else _] => destruct b end; congruence.
Qed.
Lemma mcp_check_spec p :
  first_violation (mcp_rules o p) (error_of (mcp_check_ref o p)) /\
  (forall q, mcp_check_ref o p = Ok q -> q = p).
Proof.
  split.
  - unfold mcp_check_ref, mcp_rules, alpha_rule, common_rules. steps.
  - unfold mcp_check_ref. intros q. repeat match goal with |- context [if ?b then _ else _] => destruct b end; congruence.
Qed.
Lemma enet_check_spec p :
  first_violation (enet_rules o p) (error_of (elastic_net_check_ref o p)) /\
  (forall q, elastic_net_check_ref o p = Ok q -> q = p).
Proof.
  split.
  - unfold elastic_net_check_ref, enet_rules, alpha_rule, common_rules.
    destruct (fisneg o (p_alpha p)) eqn:H1; simpl; rule H1.
    destruct (flt o (f1 o) (p_shape p)) eqn:H2; simpl.
    { apply fv_hit. auto. }
    destruct (flt o (p_shape p) (f0 o)) eqn:H3; simpl.
    { apply fv_hit. auto. }
    apply fv_skip; [intros [?|?]; congruence|]. steps.
  - unfold elastic_net_check_ref. intros q. repeat match goal with |- context [if ?b then _ else _] => destruct b end; congruence.
Qed.
Lemma block_mcp_check_spec p :
  first_violation (lasso_rules o p) (error_of (block_mcp_check_ref o p)) /\
  (forall q, block_mcp_check_ref o p = Ok q -> q = p).
Proof. exact (lasso_check_spec p). Qed.

Lemma check_eq (check_ref : params F -> vres) p :
  (forall q, check_ref p = Ok q -> q = p) -> check check_ref p = check_ref p.
Proof.
  intros H. unfold check. destruct (check_ref p) eqn:E; auto. rewrite (H a); auto.
Qed.
Lemma block_mcp_any_gamma p g : 
  error_of (block_mcp_check_ref o (set_shape g p)) = error_of (block_mcp_check_ref o p).
Proof.
  unfold block_mcp_check_ref; simpl. repeat match goal with |- context [if ?b then _ else _] => destruct b end; reflexivity.
Qed.
End V.

(** finite reals: acceptance is the documented range *)
Lemma xr_accept_lasso a s mi me ws t K ua vb :
  let p := Params (Fin a) (Fin s) mi me ws (Fin t) K ua vb in
  error_of (lasso_check_ref xops p) = None <-> (0 <= a /\ 0 <= t)%R /\ (1 <= K /\ 1 <= ws)%nat.
Proof.
  unfold lasso_check_ref. cbn -[Nat.leb]. split.
  - intros H. repeat match type of H with context [if ?b then _ else _] => destruct b eqn:? end; try discriminate.
    rb. apply Nat.leb_gt in Heqb1, Heqb2. repeat split; auto.
  - intros ((Ha & Ht) & HK & Hw). rewrite !(proj2 (Rltb_false _ _)) by auto.
    rewrite (proj2 (Nat.leb_gt K 0)), (proj2 (Nat.leb_gt ws 0)) by lia. reflexivity.
Qed.
Lemma xr_accept_mcp a s mi me ws t K ua vb :
  let p := Params (Fin a) (Fin s) mi me ws (Fin t) K ua vb in
  error_of (mcp_check_ref xops p) = None <-> (0 <= a /\ 1 <= s /\ 0 <= t)%R /\ (1 <= K /\ 1 <= ws)%nat.
Proof.
  unfold mcp_check_ref. cbn -[Nat.leb]. split.
  - intros H. repeat match type of H with context [if ?b then _ else _] => destruct b eqn:? end; try discriminate.
    rb. apply Nat.leb_gt in Heqb2, Heqb3. repeat split; auto.
  - intros ((Ha & Hs & Ht) & HK & Hw). rewrite !(proj2 (Rltb_false _ _)) by auto.
    rewrite (proj2 (Nat.leb_gt K 0)), (proj2 (Nat.leb_gt ws 0)) by lia. reflexivity.
Qed.
Lemma xr_accept_enet a s mi me ws t K ua vb :
  let p := Params (Fin a) (Fin s) mi me ws (Fin t) K ua vb in
  error_of (elastic_net_check_ref xops p) = None <-> (0 <= a /\ 0 <= s <= 1 /\ 0 <= t)%R /\ (1 <= K /\ 1 <= ws)%nat.
Proof.
  unfold elastic_net_check_ref. cbn -[Nat.leb]. split.
  - intros H. destruct (Rltb a 0) eqn:H1; [discriminate|]. destruct (Rltb 1 s) eqn:H2; [discriminate|].
    destruct (Rltb s 0) eqn:H3; [discriminate|]. cbn -[Nat.leb] in H.
    destruct (Rltb t 0) eqn:H4; [discriminate|]. destruct (K <=? 0)%nat eqn:H5; [discriminate|].
    destruct (ws <=? 0)%nat eqn:H6; [discriminate|].
    rb. apply Nat.leb_gt in H5, H6. repeat split; auto.
  - intros ((Ha & Hs & Ht) & HK & Hw). rewrite !(proj2 (Rltb_false _ _)) by (lra || auto).
    rewrite (proj2 (Nat.leb_gt K 0)), (proj2 (Nat.leb_gt ws 0)) by lia. reflexivity.
Qed.

(** IEEE: NaN accepted, negative zero rejected *)
Section I.
Context (prec emax : Z) (Hprec : Prec_gt_0 prec) (Hmax : Prec_lt_emax prec emax).
Context (m : libm prec emax).
Let io := ieee_ops prec emax Hprec Hmax m.
Lemma nan_accepted mi me ws K ua vb : (1 <= K)%nat -> (1 <= ws)%nat ->
  let p := Params (B754_nan : binary_float prec emax) B754_nan mi me ws B754_nan K ua vb in
  lasso_check_ref io p = Ok p /\ mt_lasso_check_ref io p = Ok p /\ mcp_check_ref io p = Ok p /\
  block_mcp_check_ref io p = Ok p /\ elastic_net_check_ref io p = Ok p /\
  mt_elastic_net_check_ref io p = Ok p.
Proof.
  intros HK Hws p.
  assert (H1 : (p_K p <=? 0)%nat = false) by (apply Nat.leb_gt; simpl; lia).
  assert (H2 : (p_ws_start_size p <=? 0)%nat = false) by (apply Nat.leb_gt; simpl; lia).
  assert (Hl : forall x, flt io B754_nan x = false) by reflexivity.
  assert (Hr : forall x, flt io x B754_nan = false) by (intros [| | |]; reflexivity).
  assert (H3 : flt io (p_shape p) (f1 io) = false) by apply Hl.
  assert (H4 : flt io (f1 io) (p_shape p) = false) by apply Hr.
  assert (H5 : flt io (p_shape p) (f0 io) = false) by apply Hl.
  unfold lasso_check_ref, mt_lasso_check_ref, mcp_check_ref, block_mcp_check_ref,
    elastic_net_check_ref, mt_elastic_net_check_ref.
  rewrite H1, H2, H3, H4, H5. repeat split.
Qed.
Lemma negzero_rejected s mi me ws t K ua vb :
  let p := Params (B754_zero true : binary_float prec emax) s mi me ws t K ua vb in
  let e := Err (InvalidRegularization (B754_zero true)) in
  lasso_check_ref io p = e /\ mt_lasso_check_ref io p = e /\ mcp_check_ref io p = e /\
  block_mcp_check_ref io p = e /\ elastic_net_check_ref io p = e /\ mt_elastic_net_check_ref io p = e.
Proof. repeat split. Qed.
End I.

(** ** Setters *)
Lemma calls_spec {F} (l : list (setter F)) : forall p,
  p_alpha (calls l p) = last_call (fun c => match c with SAlpha v => Some v | _ => None end) l (p_alpha p) /\
  p_shape (calls l p) = last_call (fun c => match c with SShape v => Some v | _ => None end) l (p_shape p) /\
  p_max_iterations (calls l p) = last_call (fun c => match c with SMaxIter v => Some v | _ => None end) l (p_max_iterations p) /\
  p_max_epochs (calls l p) = last_call (fun c => match c with SMaxEpochs v => Some v | _ => None end) l (p_max_epochs p) /\
  p_ws_start_size (calls l p) = last_call (fun c => match c with SWs v => Some v | _ => None end) l (p_ws_start_size p) /\
  p_tolerance (calls l p) = last_call (fun c => match c with STol v => Some v | _ => None end) l (p_tolerance p) /\
  p_K (calls l p) = last_call (fun c => match c with SK v => Some v | _ => None end) l (p_K p) /\
  p_use_acceleration (calls l p) = last_call (fun c => match c with SAccel v => Some v | _ => None end) l (p_use_acceleration p) /\
  p_verbose (calls l p) = last_call (fun c => match c with SVerbose v => Some v | _ => None end) l (p_verbose p).
Proof.
  induction l as [|c l IH]; intros p; [repeat split|].
  specialize (IH (call c p)). unfold calls in *. cbn [fold_left last_call]. destruct c; simpl in *; exact IH.
Qed.
Lemma solver_calls_spec {F} (l : list (setter F)) : forall s,
  s_max_iterations (solver_calls l s) = last_call (fun c => match c with SMaxIter v => Some v | _ => None end) l (s_max_iterations s) /\
  s_max_epochs (solver_calls l s) = last_call (fun c => match c with SMaxEpochs v => Some v | _ => None end) l (s_max_epochs s) /\
  s_ws_start_size (solver_calls l s) = last_call (fun c => match c with SWs v => Some v | _ => None end) l (s_ws_start_size s) /\
  s_tolerance (solver_calls l s) = last_call (fun c => match c with STol v => Some v | _ => None end) l (s_tolerance s) /\
  s_K (solver_calls l s) = last_call (fun c => match c with SK v => Some v | _ => None end) l (s_K s) /\
  s_use_acceleration (solver_calls l s) = last_call (fun c => match c with SAccel v => Some v | _ => None end) l (s_use_acceleration s) /\
  s_verbose (solver_calls l s) = last_call (fun c => match c with SVerbose v => Some v | _ => None end) l (s_verbose s).
Proof.
  induction l as [|c l IH]; intros s; [repeat split|].
  specialize (IH (solver_call c s)). unfold solver_calls in *. cbn [fold_left last_call]. destruct c; simpl in *; exact IH.
Qed.

(** ** Verbose has no influence *)
Section Verb.
Context {F DM D P : Type} (o : FOps F) (dm : DesignMatrix F DM) (srt : list F -> list nat).
Lemma inner_verbose (df : Datafit F DM D) (pen : Penalty F P) ds d p nf tol km K ua vb vb' ws wss ep : forall w Xw l,
  inner_loop o dm df pen ds d p nf tol km K ua vb ws wss ep w Xw l
  = inner_loop o dm df pen ds d p nf tol km K ua vb' ws wss ep w Xw l.
Proof.
  induction ep as [|e ep IH]; intros w Xw l; [reflexivity|]. cbn [inner_loop].
  apply bind_ext. intros [w1 Xw1]. apply bind_ext. intros [[w2 Xw2] l2].
  destruct (_ && _); [|apply IH]. apply bind_ext. intros _. apply bind_ext. intros [_ kk].
  destruct (_ =? _)%nat; [destruct (fle o _ _)|destruct (flt o _ _)]; auto.
Qed.
Lemma outer_verbose (df : Datafit F DM D) (pen : Penalty F P) ds d p nf wss me tol K ua vb vb' it : forall w Xw,
  outer_loop o dm df pen srt ds d p nf wss me tol K ua vb it w Xw
  = outer_loop o dm df pen srt ds d p nf wss me tol K ua vb' it w Xw.
Proof.
  induction it as [|it IH]; intros w Xw; [reflexivity|]. cbn [outer_loop].
  apply bind_ext. intros [k km]. destruct (fle o _ _); auto. apply bind_ext. intros [ws wsz].
  rewrite (inner_verbose _ _ _ _ _ _ _ _ _ _ vb vb'). apply bind_ext. intros [w1 Xw1]. apply IH.
Qed.
Lemma cd_verbose (df : Datafit F DM D) (pen : Penalty F P) ds d p a b c e f g vb vb' :
  coordinate_descent o dm df pen srt ds d p a b c e f g vb
  = coordinate_descent o dm df pen srt ds d p a b c e f g vb'.
Proof. unfold coordinate_descent. apply bind_ext. intros nf. apply bind_ext. intros d'. apply outer_verbose. Qed.

Lemma inner_verbose_mt (df : DatafitMT F DM D) (pen : PenaltyMT F P) ds d p nf tol km K ua vb vb' ws wss ep : forall w Xw l,
  inner_loop_mt o dm df pen ds d p nf tol km K ua vb ws wss ep w Xw l
  = inner_loop_mt o dm df pen ds d p nf tol km K ua vb' ws wss ep w Xw l.
Proof.
  induction ep as [|e ep IH]; intros w Xw l; [reflexivity|]. cbn [inner_loop_mt].
  apply bind_ext. intros [w1 Xw1]. apply bind_ext. intros [[w2 Xw2] l2].
  destruct (_ && _); [|apply IH]. apply bind_ext. intros _. apply bind_ext. intros [_ kk].
  destruct (_ =? _)%nat; [destruct (fle o _ _)|destruct (flt o _ _)]; auto.
Qed.
Lemma outer_verbose_mt (df : DatafitMT F DM D) (pen : PenaltyMT F P) ds d p nf wss me tol K ua vb vb' it : forall w Xw,
  outer_loop_mt o dm df pen srt ds d p nf wss me tol K ua vb it w Xw
  = outer_loop_mt o dm df pen srt ds d p nf wss me tol K ua vb' it w Xw.
Proof.
  induction it as [|it IH]; intros w Xw; [reflexivity|]. cbn [outer_loop_mt].
  apply bind_ext. intros [k km]. destruct (fle o _ _); auto. apply bind_ext. intros [ws wsz].
  rewrite (inner_verbose_mt _ _ _ _ _ _ _ _ _ _ vb vb'). apply bind_ext. intros [w1 Xw1]. apply IH.
Qed.
Lemma bcd_verbose (df : DatafitMT F DM D) (pen : PenaltyMT F P) ds d p a b c e f g vb vb' :
  block_coordinate_descent o dm df pen srt ds d p a b c e f g vb
  = block_coordinate_descent o dm df pen srt ds d p a b c e f g vb'.
Proof. unfold block_coordinate_descent. apply bind_ext. intros nf. apply bind_ext. intros d'. apply outer_verbose_mt. Qed.
End Verb.

(** ** Estimators are solver runs *)
Definition solver_of {F} (p : params F) (dflt : solver F) : solver F :=
  solver_calls [SWs (p_ws_start_size p); SMaxIter (p_max_iterations p); SMaxEpochs (p_max_epochs p);
                STol (p_tolerance p); SK (p_K p); SAccel (p_use_acceleration p)] dflt.

Section Est.
Context {F : Type} (o : FOps F) (srt : list F -> list nat).
(** the estimator's answer expressed through the solver *)
Definition run_as {A} (chk : params F -> vres) (run : solver F -> res A) (p : params F)
  : res (result A (estimator_error F)) :=
  match error_of (chk p) with
  | Some e => Ret (Err e)
  | None => bind (run (solver_of p (solver_default o))) (fun c => Ret (Ok c))
  end.

Lemma fit_unchecked_run {DM A} chk (fit : params F -> dataset DM F -> res A) run p ds :
  (forall q, chk p = Ok q -> q = p) ->
  fit p ds = run (solver_of p (solver_default o)) ->
  fit_unchecked chk fit p ds = run_as chk run p.
Proof.
  intros H1 H2. unfold fit_unchecked, run_as. destruct (chk p) as [q|e] eqn:E; simpl; auto.
  rewrite (H1 q eq_refl), H2. reflexivity.
Qed.
End Est.

Section EstAll.
Context {F : Type} (o : FOps F) (srt : list F -> list nat).
Ltac go L V := intros p ds; apply (fit_unchecked_run o);
   [apply (proj2 (L F o p)) | eapply V].
Lemma est_lasso_dense : forall p ds, fit_unchecked (lasso_check_ref o) (lasso_fit_dense o srt) p ds
  = run_as o (lasso_check_ref o) (fun s => solve o srt (dense_dm o) (quad_dense o) (l1_penalty o) s ds (df_new (quad_dense o)) (L1 (p_alpha p))) p.
Proof. go @lasso_check_spec @cd_verbose. Qed.
Lemma est_lasso_sparse : forall p ds, fit_unchecked (lasso_check_ref o) (lasso_fit_sparse o srt) p ds
  = run_as o (lasso_check_ref o) (fun s => solve o srt (sparse_dm o) (quad_sparse o) (l1_penalty o) s ds (df_new (quad_sparse o)) (L1 (p_alpha p))) p.
Proof. go @lasso_check_spec @cd_verbose. Qed.
Lemma est_mcp_dense : forall p ds, fit_unchecked (mcp_check_ref o) (mcp_fit_dense o srt) p ds
  = run_as o (mcp_check_ref o) (fun s => solve o srt (dense_dm o) (quad_dense o) (mcp_penalty o) s ds (df_new (quad_dense o)) (MCP (p_alpha p) (p_shape p))) p.
Proof. go @mcp_check_spec @cd_verbose. Qed.
Lemma est_mcp_sparse : forall p ds, fit_unchecked (mcp_check_ref o) (mcp_fit_sparse o srt) p ds
  = run_as o (mcp_check_ref o) (fun s => solve o srt (sparse_dm o) (quad_sparse o) (mcp_penalty o) s ds (df_new (quad_sparse o)) (MCP (p_alpha p) (p_shape p))) p.
Proof. go @mcp_check_spec @cd_verbose. Qed.
Lemma est_enet_dense : forall p ds, fit_unchecked (elastic_net_check_ref o) (elastic_net_fit_dense o srt) p ds
  = run_as o (elastic_net_check_ref o) (fun s => solve o srt (dense_dm o) (quad_dense o) (l1l2_penalty o) s ds (df_new (quad_dense o)) (L1PlusL2 (p_alpha p) (p_shape p))) p.
Proof. go @enet_check_spec @cd_verbose. Qed.
Lemma est_enet_sparse : forall p ds, fit_unchecked (elastic_net_check_ref o) (elastic_net_fit_sparse o srt) p ds
  = run_as o (elastic_net_check_ref o) (fun s => solve o srt (sparse_dm o) (quad_sparse o) (l1l2_penalty o) s ds (df_new (quad_sparse o)) (L1PlusL2 (p_alpha p) (p_shape p))) p.
Proof. go @enet_check_spec @cd_verbose. Qed.
Lemma est_mt_lasso_dense : forall p ds, fit_unchecked (mt_lasso_check_ref o) (mt_lasso_fit_dense o srt) p ds
  = run_as o (mt_lasso_check_ref o) (fun s => solve_multi_task o srt (dense_dm o) (qmt_dense o) (l21_penalty o) s ds (dfm_new (qmt_dense o)) (L21 (p_alpha p))) p.
Proof. go @lasso_check_spec @bcd_verbose. Qed.
Lemma est_mt_lasso_sparse : forall p ds, fit_unchecked (mt_lasso_check_ref o) (mt_lasso_fit_sparse o srt) p ds
  = run_as o (mt_lasso_check_ref o) (fun s => solve_multi_task o srt (sparse_dm o) (qmt_sparse o) (l21_penalty o) s ds (dfm_new (qmt_sparse o)) (L21 (p_alpha p))) p.
Proof. go @lasso_check_spec @bcd_verbose. Qed.
Lemma est_block_mcp_dense : forall p ds, fit_unchecked (block_mcp_check_ref o) (block_mcp_fit_dense o srt) p ds
  = run_as o (block_mcp_check_ref o) (fun s => solve_multi_task o srt (dense_dm o) (qmt_dense o) (bmcp_penalty o) s ds (dfm_new (qmt_dense o)) (BlockMCP (p_alpha p) (p_shape p))) p.
Proof. go @block_mcp_check_spec @bcd_verbose. Qed.
Lemma est_block_mcp_sparse : forall p ds, fit_unchecked (block_mcp_check_ref o) (block_mcp_fit_sparse o srt) p ds
  = run_as o (block_mcp_check_ref o) (fun s => solve_multi_task o srt (sparse_dm o) (qmt_sparse o) (bmcp_penalty o) s ds (dfm_new (qmt_sparse o)) (BlockMCP (p_alpha p) (p_shape p))) p.
Proof. go @block_mcp_check_spec @bcd_verbose. Qed.
Lemma est_mt_enet_dense : forall p ds, fit_unchecked (mt_elastic_net_check_ref o) (mt_elastic_net_fit_dense o srt) p ds
  = run_as o (mt_elastic_net_check_ref o) (fun s => solve_multi_task o srt (dense_dm o) (qmt_dense o) (bl1l2_penalty o) s ds (dfm_new (qmt_dense o)) (BlockL1PlusL2 (p_alpha p) (p_shape p))) p.
Proof. go @enet_check_spec @bcd_verbose. Qed.
Lemma est_mt_enet_sparse : forall p ds, fit_unchecked (mt_elastic_net_check_ref o) (mt_elastic_net_fit_sparse o srt) p ds
  = run_as o (mt_elastic_net_check_ref o) (fun s => solve_multi_task o srt (sparse_dm o) (qmt_sparse o) (bl1l2_penalty o) s ds (dfm_new (qmt_sparse o)) (BlockL1PlusL2 (p_alpha p) (p_shape p))) p.
Proof. go @enet_check_spec @bcd_verbose. Qed.
End EstAll.

(** the estimator does not look at [verbose] *)
Lemma check_verbose {F} (o : FOps F) p b :
  error_of (lasso_check_ref o (set_verbose b p)) = error_of (lasso_check_ref o p) /\
  error_of (mcp_check_ref o (set_verbose b p)) = error_of (mcp_check_ref o p) /\
  error_of (elastic_net_check_ref o (set_verbose b p)) = error_of (elastic_net_check_ref o p).
Proof.
  unfold lasso_check_ref, mcp_check_ref, elastic_net_check_ref; simpl.
  repeat split; repeat match goal with |- context [if ?b then _ else _] => destruct b end; reflexivity.
Qed.
Lemma run_as_verbose {F A} (o : FOps F) (chk : params F -> vres) (run : solver F -> res A) p b :
  error_of (chk (set_verbose b p)) = error_of (chk p) ->
  run_as o chk run (set_verbose b p) = run_as o chk run p.
Proof. intros H. unfold run_as. rewrite H. reflexivity. Qed.

(** ** Targets *)
Lemma single_target_spec {F} (d : F) (t : targets F) :
  match t with T1 _ => True | T2 Y => mwf Y end ->
  match n_tasks t with
  | 1%nat => exists y, try_single_target d t = Ret (Ok y) /\ length y = n_samples t /\
               forall i, (i < n_samples t)%nat -> mget (as_multi_tasks t) i 0 = Ret (nth i y d)
  | 0%nat => try_single_target d t = Panic POob
  | _ => try_single_target d t = Ret (Err NonCastableSingleTargets)
  end.
Proof.
  destruct t as [y|Y]; intros Hwf.
  - cbn [n_tasks]. exists y. unfold try_single_target. cbn [as_multi_tasks mnc n_samples].
    unfold mcol, colv. cbn [mnc mrows Nat.ltb Nat.leb bind].
    assert (E : map (fun r : list F => nth 0 r d) (map (fun v : F => [v]) y) = y)
      by (rewrite map_map; simpl; apply map_id).
    split; [|split; [reflexivity|]].
    + simpl. rewrite E. reflexivity.
    + intros i Hi. unfold mget, vget. cbn [mrows]. rewrite nth_error_map.
      rewrite (nth_error_nth' y d) by auto. reflexivity.
  - destruct Hwf as [Hr Hc]. cbn [n_tasks n_samples as_multi_tasks].
    unfold try_single_target. cbn [as_multi_tasks]. destruct (mnc Y) as [|[|c]] eqn:E.
    + simpl. unfold mcol. rewrite E. reflexivity.
    + simpl. unfold mcol. rewrite E. simpl. eexists. split; [reflexivity|]. split.
      * unfold colv. rewrite map_length. auto.
      * intros i Hi. unfold mget, vget.
        rewrite (nth_error_nth' (mrows Y) []) by lia. cbn [bind].
        unfold colv. rewrite (nth_indep _ d (nth 0 [] d)) by (rewrite map_length; lia).
        rewrite map_nth with (f := fun r : list F => nth 0 r d).
        rewrite Forall_forall in Hc.
        assert (Hin : In (nth i (mrows Y) []) (mrows Y)) by (apply nth_In; lia). specialize (Hc _ Hin).
        destruct (nth i (mrows Y) []) as [|x r]; simpl in *; [discriminate|reflexivity].
    + reflexivity.
Qed.

(** ** Python layer *)
Section PyL.
Context {F : Type} (o : FOps F).
Lemma py_mcp_rejects e a : e_alpha e = PyFloat a -> flt o a (flit o 1 1) = true ->
  py_mcp_new o e = PyRaise ValueErr /\ py_block_mcp_new o e = PyRaise ValueErr.
Proof.
  intros H1 H2. unfold py_block_mcp_new, py_mcp_new. rewrite H1. simpl.
  destruct (flt o a (flit o 0 1)); simpl; auto. rewrite H2, orb_true_r. auto.
Qed.
Lemma py_mcp_ignores_gamma e a g : e_alpha e = PyFloat a -> e_shape e = PyFloat g ->
  flt o a (flit o 0 1) = false -> flt o a (flit o 1 1) = false ->
  py_mcp_new o e = PyRet e /\ py_block_mcp_new o e = PyRet e.
Proof.
  intros H1 H2 H3 H4. unfold py_block_mcp_new, py_mcp_new. rewrite H1, H2. simpl. rewrite H3, H4. auto.
Qed.
Lemma py_enet_rejects e a : e_alpha e = PyFloat a -> flt o (flit o 1 1) a = true ->
  py_elastic_net_new o e = PyRaise ValueErr /\ py_mt_elastic_net_new o e = PyRaise ValueErr.
Proof.
  intros H1 H2. unfold py_mt_elastic_net_new, py_elastic_net_new. rewrite H1. simpl.
  destruct (flt o a (flit o 0 1)); simpl; auto. rewrite H2, !orb_true_r. auto.
Qed.
Lemma py_enet_ignores_ratio e a g : e_alpha e = PyFloat a -> e_shape e = PyFloat g ->
  flt o a (flit o 0 1) = false -> flt o (flit o 1 1) a = false ->
  py_elastic_net_new o e = PyRet e /\ py_mt_elastic_net_new o e = PyRet e.
Proof.
  intros H1 H2 H3 H4. unfold py_mt_elastic_net_new, py_elastic_net_new. rewrite H1, H2. simpl. rewrite H3, H4. auto.
Qed.
Lemma py_predict_several c X : (2 <= length c)%nat -> py_predict o (Some c) X = PyRaise ValueErr.
Proof. destruct c as [|a [|b c]]; simpl; intros; try lia. reflexivity. Qed.
Lemma py_predict_one x X : py_predict o (Some [x]) X
  = if feq o x (f0 o) then PyRaise NotFitted
    else if (mnc X =? 1)%nat then PyRet (map (fun row => ndot o row [x]) (mrows X)) else PyRaise ValueErr.
Proof. unfold py_predict. simpl. destruct (feq o x (f0 o)); reflexivity. Qed.
Lemma py_predict_unfitted X : py_predict o None X = PyRaise NotFitted.
Proof. reflexivity. Qed.

(** a zero [K] or [p0] passes the Python validation and panics in Rust *)
Lemma py_zero_K_panics {DM A} dflt hs chk (fit : params F -> dataset DM F -> res A) e ds p :
  validate_params o e = PyRet tt -> wrapper_new o dflt hs e = PyRet p ->
  (exists err, chk p = Err err) ->
  py_fit o dflt hs chk fit e ds = PyRaise (RustPanic PUnwrap).
Proof.
  intros H1 H2 [err H3]. unfold py_fit. rewrite H1. simpl. rewrite H2. simpl.
  unfold wrapper_fit, fit_unchecked. rewrite H3. reflexivity.
Qed.
End PyL.
