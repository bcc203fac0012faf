(** Proofs of C13-C17 and C24 from the refinement lemmas of [PData] and [PDatafit]. *)
From Coq Require Import List ZArith Bool Arith Reals Lra Lia.
From Verif Require Import Ops Arr MUtils MDatasets MDatafits MDatafitsMT XR PBase RSum SpecLin PLin PSubdiff SpecData PData PDatafit PCalc SpecDatafit.
Import ListNotations.
Open Scope R_scope.

Section DF.
Context {DM D : Type} (df : Datafit xr DM D) (d0 d : D) (ds : dataset DM xr) (n p : nat).
Context (f : rmat -> R) (g : rmat -> nat -> nat -> R) (L : nat -> R).
Hypothesis Hinit : df_initialize df d0 ds = Ret d.
Hypothesis Hok : df_ok df d ds n p f g L.

Lemma ok_derivative X loss :
  (forall z, f (fun i _ => z i) = loss z) ->
  (forall w j, (j < p)%nat -> derivable_pt_lim (fun s => loss (lin p X (set1 w j s))) (w j) (g (fun i _ => lin p X w i) j 0%nat)) ->
  gradient_is_derivative df d0 ds n p X loss.
Proof.
  intros Hf Hg. exists d. split; [auto|]. intros w. exists (fun j => g (fun i _ => lin p X w i) j 0%nat).
  assert (H1 := df_ok_value _ _ _ _ _ _ _ _ Hok (fun i _ => lin p X w i)). cbv beta in H1. rewrite Hf in H1.
  assert (H2 := df_ok_full _ _ _ _ _ _ _ _ Hok (fun i _ => lin p X w i)).
  split; [exact H1|]. split; [exact H2|]. intros j Hj. split; [exact (df_ok_grad _ _ _ _ _ _ _ _ Hok (fun i _ => lin p X w i) j Hj)|auto].
Qed.
Lemma ok_step (cmp : R -> R -> Prop) X :
  (forall Z j c, (j < p)%nat -> cmp (f (shift X Z j (fun _ => c))) (f Z + c * g Z j 0%nat + L j * c ^ 2 / 2)) ->
  step_size_bounds cmp df d0 ds n p X.
Proof.
  intros H. exists d, L. split; [auto|]. split; [exact (df_ok_step _ _ _ _ _ _ _ _ Hok)|]. intros z j c Hj.
  exists (f (fun i _ => z i)), (f (shift X (fun i _ => z i) j (fun _ => c))), (g (fun i _ => z i) j 0%nat).
  split; [exact (df_ok_value _ _ _ _ _ _ _ _ Hok (fun i _ => z i))|].
  split; [exact (df_ok_grad _ _ _ _ _ _ _ _ Hok (fun i _ => z i) j Hj)|].
  split; [exact (df_ok_value _ _ _ _ _ _ _ _ Hok (shift X (fun i _ => z i) j (fun _ => c)))|]. apply H. auto.
Qed.
Lemma ok_agree {DM' D'} (df' : Datafit xr DM' D') (d0' d' : D') ds' L' : df_initialize df' d0' ds' = Ret d' ->
  df_ok df' d' ds' n p f g L' -> (forall j, (j < p)%nat -> L j = L' j) -> datafits_agree df d0 ds df' d0' ds' n p.
Proof.
  intros Hi Hok' HL. exists d, d'. split; [auto|]. split; [auto|].
  rewrite (df_ok_step _ _ _ _ _ _ _ _ Hok), (df_ok_step _ _ _ _ _ _ _ _ Hok'). split; [apply xv_ext; auto|]. split; [apply xv_length|].
  intros z.
  split; [eexists; split; [exact (df_ok_value _ _ _ _ _ _ _ _ Hok (fun i _ => z i))|exact (df_ok_value _ _ _ _ _ _ _ _ Hok' (fun i _ => z i))]|].
  split; [eexists; split; [exact (df_ok_full _ _ _ _ _ _ _ _ Hok (fun i _ => z i))|exact (df_ok_full _ _ _ _ _ _ _ _ Hok' (fun i _ => z i))]|].
  intros j Hj. eexists; split; [exact (df_ok_grad _ _ _ _ _ _ _ _ Hok (fun i _ => z i) j Hj)|exact (df_ok_grad _ _ _ _ _ _ _ _ Hok' (fun i _ => z i) j Hj)].
Qed.
End DF.

Section DFM.
Context {DM D : Type} (df : DatafitMT xr DM D) (d0 d : D) (ds : dataset DM xr) (n p T : nat).
Context (f : rmat -> R) (g : rmat -> nat -> nat -> R) (L : nat -> R).
Hypothesis Hinit : dfm_initialize df d0 ds = Ret d.
Hypothesis Hok : dfm_ok df d ds n p T f g L.

Lemma okm_derivative X :
  (forall W j t, (j < p)%nat -> (t < T)%nat -> derivable_pt_lim (fun s => f (lin_mt p X (set2 W j t s))) (W j t) (g (lin_mt p X W) j t)) ->
  gradient_is_derivative_mt df d0 ds n p T X f.
Proof.
  intros Hg. exists d. split; [auto|]. intros W. exists (g (lin_mt p X W)).
  split; [exact (dfm_ok_value _ _ _ _ _ _ _ _ _ Hok _)|]. split; [exact (dfm_ok_full _ _ _ _ _ _ _ _ _ Hok _)|].
  intros j Hj. split; [exact (dfm_ok_grad _ _ _ _ _ _ _ _ _ Hok _ j Hj)|auto].
Qed.
Lemma okm_step (cmp : R -> R -> Prop) X :
  (forall Z j c, (j < p)%nat -> cmp (f (shift X Z j c)) (f Z + Sum T (fun t => c t * g Z j t) + L j * Sum T (fun t => c t ^ 2) / 2)) ->
  step_size_bounds_mt cmp df d0 ds n p T X.
Proof.
  intros H. exists d, L. split; [auto|]. split; [exact (dfm_ok_step _ _ _ _ _ _ _ _ _ Hok)|]. intros Z j c Hj.
  exists (f Z), (f (shift X Z j c)), (g Z j).
  split; [exact (dfm_ok_value _ _ _ _ _ _ _ _ _ Hok _)|].
  split; [exact (dfm_ok_grad _ _ _ _ _ _ _ _ _ Hok _ j Hj)|].
  split; [exact (dfm_ok_value _ _ _ _ _ _ _ _ _ Hok (shift X Z j c))|]. apply H. auto.
Qed.
Lemma okm_agree {DM' D'} (df' : DatafitMT xr DM' D') (d0' d' : D') ds' L' : dfm_initialize df' d0' ds' = Ret d' ->
  dfm_ok df' d' ds' n p T f g L' -> (forall j, (j < p)%nat -> L j = L' j) -> datafits_agree_mt df d0 ds df' d0' ds' n p T.
Proof.
  intros Hi Hok' HL. exists d, d'. split; [auto|]. split; [auto|].
  rewrite (dfm_ok_step _ _ _ _ _ _ _ _ _ Hok), (dfm_ok_step _ _ _ _ _ _ _ _ _ Hok'). split; [apply xv_ext; auto|]. split; [apply xv_length|].
  intros Z.
  split; [eexists; split; [exact (dfm_ok_value _ _ _ _ _ _ _ _ _ Hok Z)|exact (dfm_ok_value _ _ _ _ _ _ _ _ _ Hok' Z)]|].
  split; [eexists; split; [exact (dfm_ok_full _ _ _ _ _ _ _ _ _ Hok Z)|exact (dfm_ok_full _ _ _ _ _ _ _ _ _ Hok' Z)]|].
  intros j Hj. eexists; split; [exact (dfm_ok_grad _ _ _ _ _ _ _ _ _ Hok Z j Hj)|exact (dfm_ok_grad _ _ _ _ _ _ _ _ _ Hok' Z j Hj)].
Qed.
End DFM.

(** *** C13-C15 *)
Lemma quad_single' n y z : quad_loss_mt n 1 (fun i _ => y i) (fun i _ => z i) = quad_loss n y z.
Proof. apply quad_single. Qed.
Lemma c13_dense n p X t y d0 : (1 <= n)%nat -> single_target_of n y t ->
  gradient_is_derivative (quad_dense xops) d0 (Dataset (xm n p X) t) n p X (quad_loss n y).
Proof.
  intros Hn Ht. destruct (quad_dense_ok n p X Hn t y d0 Ht) as (d & Hi & Hok).
  apply (ok_derivative _ _ _ _ _ _ _ _ _ Hi Hok); [apply quad_single'|]. intros. apply quad_deriv; auto.
Qed.
Lemma c13_sparse n p E c t y d0 : (1 <= n)%nat -> csc_of n p E c -> single_target_of n y t ->
  gradient_is_derivative (quad_sparse xops) d0 (Dataset c t) n p (entry E) (quad_loss n y).
Proof.
  intros Hn HC Ht. destruct (quad_sparse_ok n p E c Hn HC t y d0 Ht) as (d & Hi & Hok).
  apply (ok_derivative _ _ _ _ _ _ _ _ _ Hi Hok); [apply quad_single'|]. intros. apply quad_deriv; auto.
Qed.
Lemma c14_dense n p X t y d0 : (1 <= n)%nat -> single_target_of n y t ->
  gradient_is_derivative (log_dense xops) d0 (Dataset (xm n p X) t) n p X (logistic_loss n y).
Proof.
  intros Hn Ht. destruct (log_dense_ok n p X t y d0 Hn Ht) as (d & Hi & Hok).
  apply (ok_derivative _ _ _ _ _ _ _ _ _ Hi Hok); [reflexivity|]. intros. apply log_deriv; auto.
Qed.
Lemma c14_sparse n p E c t y d0 : (1 <= n)%nat -> csc_of n p E c -> single_target_of n y t ->
  gradient_is_derivative (log_sparse xops) d0 (Dataset c t) n p (entry E) (logistic_loss n y).
Proof.
  intros Hn HC Ht. destruct (log_sparse_ok n p E c t y d0 Hn HC Ht) as (d & Hi & Hok).
  apply (ok_derivative _ _ _ _ _ _ _ _ _ Hi Hok); [reflexivity|]. intros. apply log_deriv; auto.
Qed.
Lemma c15_dense n p T X t Y d0 : (1 <= n)%nat -> multi_target_of n T Y t ->
  gradient_is_derivative_mt (qmt_dense xops) d0 (Dataset (xm n p X) t) n p T X (quad_loss_mt n T Y).
Proof.
  intros Hn Ht. destruct (qmt_dense_ok n p T X t Y d0 Hn Ht) as (d & Hi & Hok).
  apply (okm_derivative _ _ _ _ _ _ _ _ _ _ Hi Hok). intros. apply quad_mt_deriv; auto.
Qed.
Lemma c15_sparse n p T E c t Y d0 : (1 <= n)%nat -> csc_of n p E c -> multi_target_of n T Y t ->
  gradient_is_derivative_mt (qmt_sparse xops) d0 (Dataset c t) n p T (entry E) (quad_loss_mt n T Y).
Proof.
  intros Hn HC Ht. destruct (qmt_sparse_ok n p T E c t Y d0 Hn HC Ht) as (d & Hi & Hok).
  apply (okm_derivative _ _ _ _ _ _ _ _ _ _ Hi Hok). intros. apply quad_mt_deriv; auto.
Qed.

(** *** C16 *)
Lemma sqs_Lq n p E c j : (1 <= n)%nat -> csc_of n p E c -> no_repeats p E -> (j < p)%nat -> sqs E j / INR n = Lq n (entry E) j.
Proof. intros Hn HC HE Hj. unfold sqs, Lq. rewrite (entry_sq n p E c j HC HE Hj). reflexivity. Qed.
Lemma sqs_Ll n p E c j : (1 <= n)%nat -> csc_of n p E c -> no_repeats p E -> (j < p)%nat -> sqs E j / (4 * INR n) = Ll n (entry E) j.
Proof. intros Hn HC HE Hj. unfold sqs, Ll. rewrite (entry_sq n p E c j HC HE Hj). reflexivity. Qed.
Lemma quad_move1 n X y Z j c : (1 <= n)%nat ->
  quad_loss_mt n 1 (fun i _ => y i) (shift X Z j (fun _ => c))
  = quad_loss_mt n 1 (fun i _ => y i) Z + c * gq n X (fun i _ => y i) Z j 0%nat + Lq n X j * c ^ 2 / 2.
Proof. intros Hn. rewrite quad_move by auto. rewrite !(Sum_S 0), !Sum_0, !Rplus_0_l. field. Qed.
Lemma c16_quad_dense n p X t y d0 : (1 <= n)%nat -> single_target_of n y t ->
  step_size_bounds eq (quad_dense xops) d0 (Dataset (xm n p X) t) n p X.
Proof.
  intros Hn Ht. destruct (quad_dense_ok n p X Hn t y d0 Ht) as (d & Hi & Hok).
  apply (ok_step _ _ _ _ _ _ _ _ _ Hi Hok). intros. apply quad_move1; auto.
Qed.
Lemma c16_quad_sparse n p E c t y d0 : (1 <= n)%nat -> csc_of n p E c -> no_repeats p E -> single_target_of n y t ->
  step_size_bounds eq (quad_sparse xops) d0 (Dataset c t) n p (entry E).
Proof.
  intros Hn HC HE Ht. destruct (quad_sparse_ok n p E c Hn HC t y d0 Ht) as (d & Hi & Hok).
  apply (ok_step _ _ _ _ _ _ _ _ _ Hi Hok). intros. rewrite (sqs_Lq n p E c j) by auto. apply quad_move1; auto.
Qed.
Lemma log_move1 n X y Z j c : (1 <= n)%nat -> (forall i, (i < n)%nat -> Rabs (y i) <= 1) ->
  logloss n y (shift X Z j (fun _ => c)) <= logloss n y Z + c * glT n X y Z j 0%nat + Ll n X j * c ^ 2 / 2.
Proof.
  intros Hn Hy. eapply Rle_trans; [apply log_move; auto|]. rewrite !(Sum_S 0), !Sum_0, !Rplus_0_l. right. field.
Qed.
Lemma c16_log_dense n p X t y d0 : (1 <= n)%nat -> single_target_of n y t -> (forall i, (i < n)%nat -> Rabs (y i) <= 1) ->
  step_size_bounds Rle (log_dense xops) d0 (Dataset (xm n p X) t) n p X.
Proof.
  intros Hn Ht Hy. destruct (log_dense_ok n p X t y d0 Hn Ht) as (d & Hi & Hok).
  apply (ok_step _ _ _ _ _ _ _ _ _ Hi Hok). intros. apply log_move1; auto.
Qed.
Lemma c16_log_sparse n p E c t y d0 : (1 <= n)%nat -> csc_of n p E c -> no_repeats p E -> single_target_of n y t ->
  (forall i, (i < n)%nat -> Rabs (y i) <= 1) ->
  step_size_bounds Rle (log_sparse xops) d0 (Dataset c t) n p (entry E).
Proof.
  intros Hn HC HE Ht Hy. destruct (log_sparse_ok n p E c t y d0 Hn HC Ht) as (d & Hi & Hok).
  apply (ok_step _ _ _ _ _ _ _ _ _ Hi Hok). intros. rewrite (sqs_Ll n p E c j) by auto. apply log_move1; auto.
Qed.
Lemma quad_moveT n T X Y Z j c : (1 <= n)%nat ->
  quad_loss_mt n T Y (shift X Z j c)
  = quad_loss_mt n T Y Z + Sum T (fun t => c t * gq n X Y Z j t) + Lq n X j * Sum T (fun t => c t ^ 2) / 2.
Proof.
  intros Hn. rewrite quad_move by auto. rewrite (Sum_ext T (fun t => c t * gq n X Y Z j t) (fun t => gq n X Y Z j t * c t)) by (intros; ring).
  field.
Qed.
Lemma c16_mt_dense n p T X t Y d0 : (1 <= n)%nat -> multi_target_of n T Y t ->
  step_size_bounds_mt eq (qmt_dense xops) d0 (Dataset (xm n p X) t) n p T X.
Proof.
  intros Hn Ht. destruct (qmt_dense_ok n p T X t Y d0 Hn Ht) as (d & Hi & Hok).
  apply (okm_step _ _ _ _ _ _ _ _ _ _ Hi Hok). intros. apply quad_moveT; auto.
Qed.
Lemma c16_mt_sparse n p T E c t Y d0 : (1 <= n)%nat -> csc_of n p E c -> no_repeats p E -> multi_target_of n T Y t ->
  step_size_bounds_mt eq (qmt_sparse xops) d0 (Dataset c t) n p T (entry E).
Proof.
  intros Hn HC HE Ht. destruct (qmt_sparse_ok n p T E c t Y d0 Hn HC Ht) as (d & Hi & Hok).
  apply (okm_step _ _ _ _ _ _ _ _ _ _ Hi Hok). intros. rewrite (sqs_Lq n p E c j) by auto. apply quad_moveT; auto.
Qed.
Lemma sum1 f : Sum 1 f = f 0%nat.
Proof. rewrite Sum_S, Sum_0. ring. Qed.
Lemma sig0 : sig 0 = 1 / 2.
Proof. unfold sig. rewrite Ropp_0, exp_0. field. Qed.
(** target 10, design 1, fit 0, displacement 20 *)
Lemma c16_log_large_target :
  ~ step_size_bounds Rle (log_dense xops) (logistic_new xops) (Dataset (xm 1 1 (fun _ _ => 1)) (T1 (xv 1 (fun _ => 10)))) 1 1 (fun _ _ => 1).
Proof.
  intros (d & L & Hi & HL & H).
  destruct (log_dense_ok 1 1 (fun _ _ => 1) (T1 (xv 1 (fun _ => 10))) (fun _ => 10) (logistic_new xops) ltac:(lia) ltac:(left; reflexivity)) as (d' & Hi' & Hok).
  rewrite Hi in Hi'. injection Hi' as <-.
  destruct (H (fun _ => 0) 0%nat 20 ltac:(lia)) as (v & v' & g & H1 & H2 & H3 & H4).
  rewrite (df_ok_step _ _ _ _ _ _ _ _ Hok) in HL. unfold xv, tab in HL. simpl in HL. injection HL as HL.
  assert (E1 := df_ok_value _ _ _ _ _ _ _ _ Hok (fun i _ => 0)). cbv beta in E1. rewrite H1 in E1. injection E1 as ->.
  assert (E2 := df_ok_grad _ _ _ _ _ _ _ _ Hok (fun i _ => 0) 0%nat ltac:(lia)). cbv beta in E2. rewrite H2 in E2. injection E2 as ->.
  assert (E3 := df_ok_value _ _ _ _ _ _ _ _ Hok (fun i _ => 0 + 20 * 1)). cbv beta in E3. rewrite H3 in E3. injection E3 as ->.
  unfold logloss, logistic_loss, glT, gl in H4. unfold Ll in HL. rewrite !sum1 in *. simpl INR in *.
  replace (- (10) * 0) with 0 in H4 by ring. rewrite sig0 in H4.
  assert (P1 : 0 < ln (1 + exp (- (10 * (0 + 20 * 1))))).
  { apply Rle_lt_trans with (ln 1); [rewrite ln_1; lra|]. apply ln_increasing; [lra|]. pose proof (exp_pos (- (10 * (0 + 20 * 1)))). lra. }
  assert (P2 : ln (1 + exp (- (10 * 0))) <= 1).
  { replace (- (10 * 0)) with 0 by ring. rewrite exp_0. apply Rlt_le. apply Rlt_le_trans with (ln (exp 1)); [|rewrite ln_exp; lra].
    apply ln_increasing; [lra|]. pose proof (exp_ineq1 1 ltac:(lra)). lra. }
  lra.
Qed.

(** *** C17 *)
Lemma c17_quad n p E c t y d0 d0' : (1 <= n)%nat -> csc_of n p E c -> no_repeats p E -> single_target_of n y t ->
  datafits_agree (quad_dense xops) d0 (Dataset (xm n p (entry E)) t) (quad_sparse xops) d0' (Dataset c t) n p.
Proof.
  intros Hn HC HE Ht. destruct (quad_dense_ok n p (entry E) Hn t y d0 Ht) as (d & Hi & Hok).
  destruct (quad_sparse_ok n p E c Hn HC t y d0' Ht) as (d' & Hi' & Hok').
  apply (ok_agree _ _ _ _ _ _ _ _ _ Hi Hok _ _ _ _ _ Hi' Hok'). intros. symmetry. apply (sqs_Lq n p E c); auto.
Qed.
Lemma c17_log n p E c t y d0 d0' : (1 <= n)%nat -> csc_of n p E c -> no_repeats p E -> single_target_of n y t ->
  datafits_agree (log_dense xops) d0 (Dataset (xm n p (entry E)) t) (log_sparse xops) d0' (Dataset c t) n p.
Proof.
  intros Hn HC HE Ht. destruct (log_dense_ok n p (entry E) t y d0 Hn Ht) as (d & Hi & Hok).
  destruct (log_sparse_ok n p E c t y d0' Hn HC Ht) as (d' & Hi' & Hok').
  apply (ok_agree _ _ _ _ _ _ _ _ _ Hi Hok _ _ _ _ _ Hi' Hok'). intros. symmetry. apply (sqs_Ll n p E c); auto.
Qed.
Lemma c17_mt n p T E c t Y d0 d0' : (1 <= n)%nat -> csc_of n p E c -> no_repeats p E -> multi_target_of n T Y t ->
  datafits_agree_mt (qmt_dense xops) d0 (Dataset (xm n p (entry E)) t) (qmt_sparse xops) d0' (Dataset c t) n p T.
Proof.
  intros Hn HC HE Ht. destruct (qmt_dense_ok n p T (entry E) t Y d0 Hn Ht) as (d & Hi & Hok).
  destruct (qmt_sparse_ok n p T E c t Y d0' Hn HC Ht) as (d' & Hi' & Hok').
  apply (okm_agree _ _ _ _ _ _ _ _ _ _ Hi Hok _ _ _ _ _ Hi' Hok'). intros. symmetry. apply (sqs_Lq n p E c); auto.
Qed.
(** model-fit updates and extrapolated fits need no duplicate-freeness *)
Lemma c17_fits n p E c : csc_of n p E c ->
  (forall z d j, (j < p)%nat -> both (dm_update (dense_dm xops) (xm n p (entry E)) (xv n z) (Fin d) j) (dm_update (sparse_dm xops) c (xv n z) (Fin d) j)) /\
  (forall w ws, (forall j, In j ws -> (j < p)%nat) -> both (dm_extrap (dense_dm xops) (xm n p (entry E)) ws (xv p w) n) (dm_extrap (sparse_dm xops) c ws (xv p w) n)) /\
  (forall T Z d j, (j < p)%nat -> both (dm_update_mt (dense_dm xops) (xm n p (entry E)) (xm n T Z) (xv T d) j) (dm_update_mt (sparse_dm xops) c (xm n T Z) (xv T d) j)) /\
  (forall T W ws, (forall j, In j ws -> (j < p)%nat) -> both (dm_extrap_mt (dense_dm xops) (xm n p (entry E)) ws (xm p T W) n T) (dm_extrap_mt (sparse_dm xops) c ws (xm p T W) n T)).
Proof.
  intros HC. pose proof (dense_ok n p (entry E)) as A. pose proof (sparse_ok n p E c HC) as B.
  split; [|split; [|split]]; intros; eexists; split.
  - exact (dm_ok_upd _ _ _ _ _ A _ _ _ H). - exact (dm_ok_upd _ _ _ _ _ B _ _ _ H).
  - exact (dm_ok_ext _ _ _ _ _ A _ _ H). - exact (dm_ok_ext _ _ _ _ _ B _ _ H).
  - exact (dm_ok_upd_mt _ _ _ _ _ A _ _ _ _ H). - exact (dm_ok_upd_mt _ _ _ _ _ B _ _ _ _ H).
  - exact (dm_ok_ext_mt _ _ _ _ _ A _ _ _ H). - exact (dm_ok_ext_mt _ _ _ _ _ B _ _ _ H).
Qed.

(** *** alpha_max *)
Definition maxabs (p : nat) (f : nat -> R) : R := fold_left Rmax (map (fun j => Rabs (f j)) (seq 0 p)) 0.
Lemma maxabs_largest p f : is_largest p (fun j => Rabs (f j)) (maxabs p f).
Proof.
  unfold maxabs. destruct (fold_Rmax_spec (map (fun j => Rabs (f j)) (seq 0 p)) 0) as [H1 H2]. split.
  - intros j Hj. apply H2. right. apply (in_map (fun j => Rabs (f j))). apply in_seq. lia.
  - destruct p as [|p]; [right; split; reflexivity|left].
    set (m := fold_left _ _ _) in *. destruct H1 as [H1|H1].
    + exists 0%nat. split; [lia|]. assert (Rabs (f 0%nat) <= m) by (apply H2; right; left; reflexivity). pose proof (Rabs_pos (f 0%nat)). lra.
    + apply in_map_iff in H1 as (j & E & Hj). apply in_seq in Hj. exists j. split; [lia|auto].
Qed.
Lemma maxabs_fold p f : forall a, fold_left (fun m x => fmax xops m (fabs xops x)) (xv p f) (Fin a) = Fin (fold_left Rmax (map (fun j => Rabs (f j)) (seq 0 p)) a).
Proof. unfold xv, tab. induction (seq 0 p) as [|j l IH]; intros a; simpl; [reflexivity|apply IH]. Qed.
Lemma maxabs_fold' p f : forall a, fold_left (fun m x => fmax xops (fabs xops x) m) (xv p f) (Fin a) = Fin (fold_left Rmax (map (fun j => Rabs (f j)) (seq 0 p)) a).
Proof.
  unfold xv, tab. induction (seq 0 p) as [|j l IH]; intros a; simpl; [reflexivity|]. rewrite (Rmax_comm (Rabs (f j)) a). apply IH.
Qed.
Definition xty n (X : rmat) (y : nat -> R) (j : nat) : R := Sum n (fun i => X i j * y i).
Lemma alpha_max_dense n p X y : (1 <= n)%nat ->
  compute_alpha_max xops (xm n p X) (xv n y) = Ret (Fin (maxabs p (xty n X y) / INR n)).
Proof.
  intros Hn. unfold compute_alpha_max, mtv. change (mnr (xm n p X)) with n. rewrite xv_length, Nat.eqb_refl. cbn [bind].
  unfold xm. rewrite cols_tabm. rewrite map_tab. f_equal.
  replace (tab p (fun i => ndot xops (tab n (fun i0 => Fin (X i0 i))) (xv n y))) with (xv p (xty n X y)).
  - change (f0 xops) with (Fin 0). rewrite maxabs_fold'. apply xdiv_n. auto.
  - apply tab_ext. intros j Hj. cbn [ndot xops]. unfold xv. rewrite xdot_tab. reflexivity.
Qed.
Lemma alpha_max_sparse n p E c y : (1 <= n)%nat -> csc_of n p E c ->
  compute_alpha_max_sparse xops c (xv n y) = Ret (Fin (maxabs p (xty n (entry E) y) / INR n)).
Proof.
  intros Hn HC. unfold compute_alpha_max_sparse. unfold csc_n_features at 1. rewrite (proj1 HC). cbn [bind].
  rewrite (mapM_seq _ p (fun j => Fin (xty n (entry E) y j))).
  - cbn [bind]. change (f0 xops) with (Fin 0). change (tab p (fun j => Fin (xty n (entry E) y j))) with (xv p (xty n (entry E) y)).
    rewrite maxabs_fold, xv_length. f_equal. apply xdiv_n. auto.
  - intros j Hj. change (f0 xops) with (Fin 0).
    rewrite (col_loop Fin c j (E j) _ (fun a e => a + snd e * y (fst e)) (proj1 (proj2 HC j Hj))).
    + rewrite (fold_sum (fun e : nat * R => snd e * y (fst e))). rewrite (entry_sum n p E c j y HC Hj), Rplus_0_l. reflexivity.
    + intros a z e He H1 H2. rewrite H1. cbn [bind]. rewrite H2. cbn [bind].
      rewrite vgetz_xv by (apply (proj2 HC j Hj); auto). reflexivity.
Qed.
Definition xty_norm n T (X Y : rmat) (j : nat) : R := sqrt (Sum T (fun t => (Sum n (fun i => X i j * Y i t)) ^ 2)).
Lemma alpha_max_mtl n p T X Y : (1 <= n)%nat ->
  compute_alpha_max_mtl xops (xm n p X) (xm n T Y) = Ret (Fin (maxabs p (xty_norm n T X Y) / INR n)).
Proof.
  intros Hn. unfold compute_alpha_max_mtl, mtm. change (mnr (xm n p X)) with n. change (mnr (xm n T Y)) with n. rewrite Nat.eqb_refl. cbn [bind mrows].
  unfold xm. rewrite !cols_tabm, !map_tab. f_equal.
  rewrite (tab_ext p _ (fun j => Fin (xty_norm n T X Y j))).
  - change (f0 xops) with (Fin 0). change (tab p (fun j => Fin (xty_norm n T X Y j))) with (xv p (xty_norm n T X Y)).
    rewrite maxabs_fold. apply xdiv_n. auto.
  - intros j Hj. rewrite map_tab. rewrite (tab_ext T _ (fun t => Fin (Sum n (fun i => X i j * Y i t)))).
    + cbn [ndot xops fsqrt]. rewrite xdot_tab. rewrite xsqrt_fin.
      * unfold xty_norm. do 2 f_equal. apply Sum_ext. intros. ring.
      * apply Sum_nonneg. intros. pose proof (pow2_ge_0 (Sum n (fun i0 => X i0 j * Y i0 i))). lra.
    + intros t Ht. cbn [gdot xops]. apply xdot_tab.
Qed.
Lemma is_largest_ext p f g m : (forall j, (j < p)%nat -> f j = g j) -> is_largest p f m -> is_largest p g m.
Proof.
  intros H [H1 H2]. split; [intros j Hj; rewrite <- H by auto; auto|]. destruct H2 as [(j & Hj & E)|H2]; [left; exists j; split; [auto|]; rewrite <- H; auto|auto].
Qed.
Lemma alpha_max_single n p X y : (1 <= n)%nat -> exists m, is_largest p (fun j => Rabs (Sum n (fun i => X i j * y i))) m /\
  compute_alpha_max xops (xm n p X) (xv n y) = Ret (Fin (m / INR n)).
Proof. intros Hn. exists (maxabs p (xty n X y)). split; [apply maxabs_largest|apply alpha_max_dense; auto]. Qed.
Lemma alpha_max_multi n p T X Y : (1 <= n)%nat -> exists m, is_largest p (fun j => sqrt (Sum T (fun t => (Sum n (fun i => X i j * Y i t)) ^ 2))) m /\
  compute_alpha_max_mtl xops (xm n p X) (xm n T Y) = Ret (Fin (m / INR n)).
Proof.
  intros Hn. exists (maxabs p (xty_norm n T X Y)). split; [|apply alpha_max_mtl; auto].
  eapply is_largest_ext; [|apply maxabs_largest]. intros j _. cbv beta. apply Rabs_right. apply Rle_ge, sqrt_pos.
Qed.
Lemma c17_alpha_max n p E c y : (1 <= n)%nat -> csc_of n p E c ->
  both (compute_alpha_max xops (xm n p (entry E)) (xv n y)) (compute_alpha_max_sparse xops c (xv n y)).
Proof. intros Hn HC. eexists. split; [apply alpha_max_dense; auto|apply alpha_max_sparse; auto]. Qed.

(** a column storing row 0 twice with value 1: entry 2, squared norm 4, reported 2 *)
Definition dupE (j : nat) : list (nat * R) := [(0%nat, 1); (0%nat, 1)].
Definition dupC : csc xr := Csc [Fin 1; Fin 1] [0%Z; 0%Z] [0%Z; 2%Z].
Lemma dup_csc : csc_of 1 1 dupE dupC.
Proof.
  split; [reflexivity|]. intros j Hj. replace j with 0%nat by lia. split.
  - exists 0%nat. split; [reflexivity|]. split; [reflexivity|]. intros [|[|k]] e; simpl; try discriminate.
    + intros [= <-]. auto. + intros [= <-]. auto. + destruct k; discriminate.
  - intros e [<-|[<-|[]]]; simpl; lia.
Qed.
Lemma c17_duplicates : exists d d',
  df_initialize (quad_dense xops) (quadratic_new xops) (Dataset (xm 1 1 (entry dupE)) (T1 (xv 1 (fun _ => 1)))) = Ret d /\
  df_initialize (quad_sparse xops) (quadratic_new xops) (Dataset dupC (T1 (xv 1 (fun _ => 1)))) = Ret d' /\
  df_step_size (quad_dense xops) d = [Fin 4] /\ df_step_size (quad_sparse xops) d' = [Fin 2].
Proof.
  destruct (quad_dense_ok 1 1 (entry dupE) ltac:(lia) (T1 (xv 1 (fun _ => 1))) (fun _ => 1) (quadratic_new xops) ltac:(left; reflexivity)) as (d & Hi & Hok).
  destruct (quad_sparse_ok 1 1 dupE dupC ltac:(lia) dup_csc (T1 (xv 1 (fun _ => 1))) (fun _ => 1) (quadratic_new xops) ltac:(left; reflexivity)) as (d' & Hi' & Hok').
  exists d, d'. split; [auto|]. split; [auto|]. rewrite (df_ok_step _ _ _ _ _ _ _ _ Hok), (df_ok_step _ _ _ _ _ _ _ _ Hok').
  unfold xv, tab, Lq, sqs, entry. simpl. rewrite sum1. simpl. unfold Rsum. simpl. split; do 2 f_equal; field.
Qed.
Lemma c16_duplicates_break : ~ step_size_bounds Rle (quad_sparse xops) (quadratic_new xops) (Dataset dupC (T1 (xv 1 (fun _ => 1)))) 1 1 (entry dupE).
Proof.
  intros (d & L & Hi & HL & H).
  destruct (quad_sparse_ok 1 1 dupE dupC ltac:(lia) dup_csc (T1 (xv 1 (fun _ => 1))) (fun _ => 1) (quadratic_new xops) ltac:(left; reflexivity)) as (d' & Hi' & Hok).
  rewrite Hi in Hi'. injection Hi' as <-.
  destruct (H (fun _ => 1) 0%nat 1 ltac:(lia)) as (v & v' & g & H1 & H2 & H3 & H4).
  rewrite (df_ok_step _ _ _ _ _ _ _ _ Hok) in HL. unfold xv, tab in HL. simpl in HL. injection HL as HL.
  assert (E1 := df_ok_value _ _ _ _ _ _ _ _ Hok (fun i _ => 1)). cbv beta in E1. rewrite H1 in E1. injection E1 as ->.
  assert (E2 := df_ok_grad _ _ _ _ _ _ _ _ Hok (fun i _ => 1) 0%nat ltac:(lia)). cbv beta in E2. rewrite H2 in E2. injection E2 as ->.
  assert (E3 := df_ok_value _ _ _ _ _ _ _ _ Hok (fun i _ => 1 + 1 * entry dupE i 0%nat)). cbv beta in E3. rewrite H3 in E3. injection E3 as ->.
  unfold quad_loss_mt, gq in H4. unfold sqs in HL. rewrite !sum1 in *. unfold entry in H4. unfold Rsum in *. simpl in *. lra.
Qed.

(** *** C24 *)
Lemma lin_bump p X w u i : (fst u < p)%nat -> lin p X (bump w u) i = lin p X w i + snd u * X i (fst u).
Proof.
  intros Hj. unfold lin. rewrite (Sum_upd p _ (fun k => X i k * w k) (fst u) Hj).
  - unfold bump. rewrite Nat.eqb_refl. ring.
  - intros k _ Hk. unfold bump. rewrite (proj2 (Nat.eqb_neq k (fst u))) by auto. reflexivity.
Qed.
Lemma lin_bump_mt p X W u i t : (fst u < p)%nat -> lin_mt p X (bump_mt W u) i t = lin_mt p X W i t + snd u t * X i (fst u).
Proof.
  intros Hj. unfold lin_mt. rewrite (Sum_upd p _ (fun k => X i k * W k t) (fst u) Hj).
  - unfold bump_mt. rewrite Nat.eqb_refl. ring.
  - intros k _ Hk. unfold bump_mt. rewrite (proj2 (Nat.eqb_neq k (fst u))) by auto. reflexivity.
Qed.
Lemma sum_support p (f : nat -> R) : forall ws, NoDup ws -> (forall j, In j ws -> (j < p)%nat) ->
  (forall j, (j < p)%nat -> ~ In j ws -> f j = 0) -> Rsum (map f ws) = Sum p f.
Proof.
  intros ws Hn Hws H0.
  assert (G : forall ws, NoDup ws -> (forall j, In j ws -> (j < p)%nat) -> Rsum (map f ws) = Sum p (fun j => if in_dec Nat.eq_dec j ws then f j else 0)).
  { clear. induction ws as [|k ws IH]; intros Hn Hws.
    - unfold Rsum. simpl. rewrite Sum_zero; auto.
    - inversion Hn as [|? ? H1 H2]; subst. assert (Hk : (k < p)%nat) by (apply Hws; left; auto).
      rewrite (Sum_upd p _ (fun j => if in_dec Nat.eq_dec j ws then f j else 0) k Hk).
      + unfold Rsum in *. simpl. rewrite IH by (auto; intros; apply Hws; right; auto).
        destruct (in_dec Nat.eq_dec k ws); [tauto|]. destruct (Nat.eq_dec k k); [lra|tauto].
      + intros j Hj Hne. simpl. destruct (Nat.eq_dec k j); [congruence|]. destruct (in_dec Nat.eq_dec j ws); auto. }
  rewrite G by auto. apply Sum_ext. intros j Hj. destruct (in_dec Nat.eq_dec j ws); auto. symmetry. auto.
Qed.
Section Fits.
Context {DM : Type} (dm : DesignMatrix xr DM) (D : DM) (n p : nat) (X : rmat).
Hypothesis H : dm_ok dm D n p X.
Lemma updates_track us : (forall u, In u us -> (fst u < p)%nat) -> forall w,
  foldM (fun fit u => dm_update dm D fit (Fin (snd u)) (fst u)) us (xv n (lin p X w))
  = Ret (xv n (lin p X (fold_left bump us w))).
Proof.
  induction us as [|u us IH]; intros Hu w; [reflexivity|]. cbn [foldM fold_left].
  rewrite (dm_ok_upd _ _ _ _ _ H) by (apply Hu; left; auto). cbn [bind].
  rewrite <- (IH (fun v Hv => Hu v (or_intror Hv)) (bump w u)). f_equal. apply xv_ext. intros i _. rewrite lin_bump; auto. apply Hu; left; auto.
Qed.
Lemma updates_track_mt T us : (forall u, In u us -> (fst u < p)%nat) -> forall W,
  foldM (fun fit u => dm_update_mt dm D fit (xv T (snd u)) (fst u)) us (xm n T (lin_mt p X W))
  = Ret (xm n T (lin_mt p X (fold_left bump_mt us W))).
Proof.
  induction us as [|u us IH]; intros Hu W; [reflexivity|]. cbn [foldM fold_left].
  rewrite (dm_ok_upd_mt _ _ _ _ _ H) by (apply Hu; left; auto). cbn [bind].
  rewrite <- (IH (fun v Hv => Hu v (or_intror Hv)) (bump_mt W u)). f_equal. apply xm_ext. intros i t _ _. rewrite lin_bump_mt; auto. apply Hu; left; auto.
Qed.
Lemma extrap_fit ws w : NoDup ws -> (forall j, In j ws -> (j < p)%nat) -> (forall j, (j < p)%nat -> ~ In j ws -> w j = 0) ->
  dm_extrap dm D ws (xv p w) n = Ret (xv n (lin p X w)).
Proof.
  intros Hn Hws H0. rewrite (dm_ok_ext _ _ _ _ _ H) by auto. f_equal. apply xv_ext. intros i _. unfold lin.
  apply (sum_support p (fun j => X i j * w j)); auto. intros j Hj Hi. rewrite H0; auto. ring.
Qed.
Lemma extrap_fit_mt T ws W : NoDup ws -> (forall j, In j ws -> (j < p)%nat) -> (forall j t, (j < p)%nat -> (t < T)%nat -> ~ In j ws -> W j t = 0) ->
  dm_extrap_mt dm D ws (xm p T W) n T = Ret (xm n T (lin_mt p X W)).
Proof.
  intros Hn Hws H0. rewrite (dm_ok_ext_mt _ _ _ _ _ H) by auto. f_equal. apply xm_ext. intros i t _ Ht. unfold lin_mt.
  apply (sum_support p (fun j => X i j * W j t)); auto. intros j Hj Hi. rewrite H0; auto. ring.
Qed.
End Fits.
