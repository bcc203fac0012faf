(** Settings without influence (any arithmetic). *)
From Coq Require Import List ZArith Bool Arith Lia.
From Verif Require Import Ops Arr MUtils MDatasets MDatafits MDatafitsMT MPenalties MBlockPenalties MCd MBcd MHyper MEstimators SpecSolve PBase PRuns.
Import ListNotations.

Section CD.
Context {F DM D P : Type} (o : FOps F) (dm : DesignMatrix F DM) (df : Datafit F DM D) (pen : Penalty F P) (srt : list F -> list nat).
Lemma accel_idle ds d q H w Xw ws e K v r : e < K -> anderson_accel o dm df pen ds d q H w Xw ws e K v = Ret r -> exists H', r = (w, Xw, H').
Proof using.
  intros He. unfold anderson_accel. destruct (dm_n_features _ _); cbn [bind]; [|discriminate]. destruct (store_iterate _ _ _ _) as [H'|]; cbn [bind]; [|discriminate].
  rewrite Nat.mod_small by lia. destruct (e =? K) eqn:B; [apply Nat.eqb_eq in B; lia|]. intros [= <-]. eauto.
Qed.
Lemma inner_idle ds d q p tol km K v K' v' ws wz : forall es w Xw H H' s, (forall e, In e es -> e < K) ->
  inner_loop o dm df pen ds d q p tol km K true v ws wz es w Xw H = Ret s -> inner_loop o dm df pen ds d q p tol km K' false v' ws wz es w Xw H' = Ret s.
Proof using.
  induction es as [|e es IH]; intros w Xw H H' s He; cbn [inner_loop]; auto.
  destruct (foldM _ ws (w, Xw)) as [[w1 Xw1]|]; cbn [bind]; [|discriminate].
  destruct (anderson_accel _ _ _ _ _ _ _ _ _ _ _ _ _ _) as [r|] eqn:E; cbn [bind]; [|discriminate]. apply accel_idle in E as (H2 & ->); [|apply He; left; auto].
  assert (N : forall t, inner_loop o dm df pen ds d q p tol km K true v ws wz es w1 Xw1 H2 = Ret t -> inner_loop o dm df pen ds d q p tol km K' false v' ws wz es w1 Xw1 H' = Ret t) by (intros; eapply IH; eauto; intros; apply He; right; auto).
  destruct (_ && _); [|auto]. destruct (df_value _ _ _ _); cbn [bind]; [|discriminate]. destruct (opt_cond_violation _ _ _ _ _ _ _ _) as [[sc mx]|]; cbn [bind]; [|discriminate].
  destruct (wz =? p); [destruct (fle o mx tol)|destruct (flt o mx _)]; auto.
Qed.
Lemma outer_idle ds d q p ws0 me tol K v K' v' : me <= K -> forall it w Xw r,
  outer_loop o dm df pen srt ds d q p ws0 me tol K true v it w Xw = Ret r -> outer_loop o dm df pen srt ds d q p ws0 me tol K' false v' it w Xw = Ret r.
Proof using.
  intros Hm. induction it as [|it IH]; intros w Xw r; cbn [outer_loop]; auto.
  destruct (opt_cond_violation _ _ _ _ _ _ _ _) as [[kkt mx]|]; cbn [bind]; [|discriminate]. destruct (fle o mx tol); auto.
  destruct (construct_ws_from_kkt _ _ _ _ _) as [[ws wz]|]; cbn [bind]; [|discriminate].
  destruct (inner_loop o dm df pen ds d q p tol mx K true v ws wz _ _ _ _) as [[w1 Xw1]|] eqn:E; cbn [bind]; [|discriminate].
  assert (HE : forall e, In e (seq 0 me) -> e < K) by (intros e He; apply in_seq in He; lia).
  rewrite (inner_idle _ _ _ _ _ _ K v K' v' ws wz _ _ _ _ (mzeros o (S K') wz) _ HE E). cbn [bind]. auto.
Qed.
Lemma cd_idle ds d q ws0 it me tol K v K' v' w : me <= K -> coordinate_descent o dm df pen srt ds d q ws0 it me tol K true v = Ret w ->
  coordinate_descent o dm df pen srt ds d q ws0 it me tol K' false v' = Ret w.
Proof using.
  intros Hm. unfold coordinate_descent. destruct (dm_n_features _ _); cbn [bind]; [|discriminate]. destruct (df_initialize _ _ _); cbn [bind]; [|discriminate]. apply outer_idle. auto.
Qed.
(** without acceleration [K] and [verbose] are not used *)
Lemma inner_K ds d q p tol km K v K' v' ws wz : forall es w Xw H H',
  inner_loop o dm df pen ds d q p tol km K false v ws wz es w Xw H = inner_loop o dm df pen ds d q p tol km K' false v' ws wz es w Xw H'.
Proof using.
  induction es as [|e es IH]; intros w Xw H H'; cbn [inner_loop]; auto. destruct (foldM _ ws (w, Xw)) as [[w1 Xw1]|]; cbn [bind]; auto. rewrite (IH w1 Xw1 H H'). auto.
Qed.
Lemma outer_K ds d q p ws0 me tol K v K' v' : forall it w Xw,
  outer_loop o dm df pen srt ds d q p ws0 me tol K false v it w Xw = outer_loop o dm df pen srt ds d q p ws0 me tol K' false v' it w Xw.
Proof using.
  induction it as [|it IH]; intros w Xw; cbn [outer_loop]; auto.
  destruct (opt_cond_violation _ _ _ _ _ _ _ _) as [[kkt mx]|]; cbn [bind]; auto. destruct (fle o mx tol); auto. destruct (construct_ws_from_kkt _ _ _ _ _) as [[ws wz]|]; cbn [bind]; auto.
  rewrite (inner_K _ _ _ _ _ _ K v K' v' ws wz _ _ _ _ (mzeros o (S K') wz)). destruct (inner_loop _ _ _ _ _ _ _ _ _ _ _ _ _ _ _ _ _ _ _) as [[w1 Xw1]|]; cbn [bind]; auto.
Qed.
Lemma cd_K ds d q ws0 it me tol K v K' v' : coordinate_descent o dm df pen srt ds d q ws0 it me tol K false v = coordinate_descent o dm df pen srt ds d q ws0 it me tol K' false v'.
Proof using. unfold coordinate_descent. destruct (dm_n_features _ _); cbn [bind]; auto. destruct (df_initialize _ _ _); cbn [bind]; auto. apply outer_K. Qed.
Lemma cd_ws ds d q ws0 ws1 it me tol K acc v p : dm_n_features dm (design_matrix ds) = Ret p -> p <= ws0 -> p <= ws1 ->
  coordinate_descent o dm df pen srt ds d q ws0 it me tol K acc v = coordinate_descent o dm df pen srt ds d q ws1 it me tol K acc v.
Proof using.
  intros Ep H0 H1. unfold coordinate_descent. rewrite Ep. cbn [bind]. destruct (df_initialize _ _ _); cbn [bind]; auto.
  replace (if p <? ws0 then p else ws0) with p; [replace (if p <? ws1 then p else ws1) with p; auto|]; destruct (p <? _) eqn:B; auto; apply Nat.ltb_ge in B; lia.
Qed.
Lemma cd_none ds d q ws0 it me tol K acc v w p : dm_n_features dm (design_matrix ds) = Ret p -> me = 0 \/ it = 0 ->
  coordinate_descent o dm df pen srt ds d q ws0 it me tol K acc v = Ret w -> w = repeat (f0 o) p.
Proof using.
  intros Ep H. unfold coordinate_descent. rewrite Ep. cbn [bind]. destruct (df_initialize _ _ _) as [d'|]; cbn [bind]; [|discriminate].
  generalize (if p <? ws0 then p else ws0) as z. generalize (vzeros o (n_samples (dtargets ds))) as Xw. unfold vzeros. destruct H as [-> | ->]; [|cbn; congruence].
  induction it as [|it IH]; intros Xw z; cbn [outer_loop]; [congruence|].
  destruct (opt_cond_violation _ _ _ _ _ _ _ _) as [[kkt mx]|]; cbn [bind]; [|discriminate]. destruct (fle o mx tol); [congruence|]. destruct (construct_ws_from_kkt _ _ _ _ _) as [[ws wz]|]; cbn [bind]; [|discriminate].
  cbn [seq inner_loop bind]. apply IH.
Qed.
End CD.

Section BCD.
Context {F DM D P : Type} (o : FOps F) (dm : DesignMatrix F DM) (df : DatafitMT F DM D) (pen : PenaltyMT F P) (srt : list F -> list nat).
Lemma accel_idle_mt ds d q H W XW ws e K v r : e < K -> anderson_accel_mt o dm df pen ds W XW d q ws H e K v = Ret r -> exists H', r = (W, XW, H').
Proof using.
  intros He. unfold anderson_accel_mt. destruct (dm_n_features _ _); cbn [bind]; [|discriminate]. destruct (store_iterate_mt _ _ _ _) as [H'|]; cbn [bind]; [|discriminate].
  rewrite Nat.mod_small by lia. destruct (e =? K) eqn:B; [apply Nat.eqb_eq in B; lia|]. intros [= <-]. eauto.
Qed.
Lemma inner_idle_mt ds d q p tol km K v K' v' ws wz : forall es w Xw H H' s, (forall e, In e es -> e < K) ->
  inner_loop_mt o dm df pen ds d q p tol km K true v ws wz es w Xw H = Ret s -> inner_loop_mt o dm df pen ds d q p tol km K' false v' ws wz es w Xw H' = Ret s.
Proof using.
  induction es as [|e es IH]; intros w Xw H H' s He; cbn [inner_loop_mt]; auto.
  destruct (foldM _ ws (w, Xw)) as [[w1 Xw1]|]; cbn [bind]; [|discriminate].
  destruct (anderson_accel_mt _ _ _ _ _ _ _ _ _ _ _ _ _ _) as [r|] eqn:E; cbn [bind]; [|discriminate]. apply accel_idle_mt in E as (H2 & ->); [|apply He; left; auto].
  assert (N : forall t, inner_loop_mt o dm df pen ds d q p tol km K true v ws wz es w1 Xw1 H2 = Ret t -> inner_loop_mt o dm df pen ds d q p tol km K' false v' ws wz es w1 Xw1 H' = Ret t) by (intros; eapply IH; eauto; intros; apply He; right; auto).
  destruct (_ && _); [|auto]. destruct (dfm_value _ _ _ _); cbn [bind]; [|discriminate]. destruct (opt_cond_violation_mt _ _ _ _ _ _ _ _) as [[sc mx]|]; cbn [bind]; [|discriminate].
  destruct (wz =? p); [destruct (fle o mx tol)|destruct (flt o mx _)]; auto.
Qed.
Lemma outer_idle_mt ds d q p ws0 me tol K v K' v' : me <= K -> forall it w Xw r,
  outer_loop_mt o dm df pen srt ds d q p ws0 me tol K true v it w Xw = Ret r -> outer_loop_mt o dm df pen srt ds d q p ws0 me tol K' false v' it w Xw = Ret r.
Proof using.
  intros Hm. induction it as [|it IH]; intros w Xw r; cbn [outer_loop_mt]; auto.
  destruct (opt_cond_violation_mt _ _ _ _ _ _ _ _) as [[kkt mx]|]; cbn [bind]; [|discriminate]. destruct (fle o mx tol); auto.
  destruct (construct_ws_from_kkt_mt _ _ _ _ _) as [[ws wz]|]; cbn [bind]; [|discriminate].
  destruct (inner_loop_mt o dm df pen ds d q p tol mx K true v ws wz _ _ _ _) as [[w1 Xw1]|] eqn:E; cbn [bind]; [|discriminate].
  assert (HE : forall e, In e (seq 0 me) -> e < K) by (intros e He; apply in_seq in He; lia).
  rewrite (inner_idle_mt _ _ _ _ _ _ K v K' v' ws wz _ _ _ _ (mzeros o (S K') (wz * n_tasks (dtargets ds))) _ HE E). cbn [bind]. auto.
Qed.
Lemma bcd_idle ds d q ws0 it me tol K v K' v' w : me <= K -> block_coordinate_descent o dm df pen srt ds d q ws0 it me tol K true v = Ret w ->
  block_coordinate_descent o dm df pen srt ds d q ws0 it me tol K' false v' = Ret w.
Proof using.
  intros Hm. unfold block_coordinate_descent. destruct (dm_n_features _ _); cbn [bind]; [|discriminate]. destruct (dfm_initialize _ _ _); cbn [bind]; [|discriminate]. apply outer_idle_mt. auto.
Qed.
Lemma inner_K_mt ds d q p tol km K v K' v' ws wz : forall es w Xw H H',
  inner_loop_mt o dm df pen ds d q p tol km K false v ws wz es w Xw H = inner_loop_mt o dm df pen ds d q p tol km K' false v' ws wz es w Xw H'.
Proof using.
  induction es as [|e es IH]; intros w Xw H H'; cbn [inner_loop_mt]; auto. destruct (foldM _ ws (w, Xw)) as [[w1 Xw1]|]; cbn [bind]; auto. rewrite (IH w1 Xw1 H H'). auto.
Qed.
Lemma outer_K_mt ds d q p ws0 me tol K v K' v' : forall it w Xw,
  outer_loop_mt o dm df pen srt ds d q p ws0 me tol K false v it w Xw = outer_loop_mt o dm df pen srt ds d q p ws0 me tol K' false v' it w Xw.
Proof using.
  induction it as [|it IH]; intros w Xw; cbn [outer_loop_mt]; auto.
  destruct (opt_cond_violation_mt _ _ _ _ _ _ _ _) as [[kkt mx]|]; cbn [bind]; auto. destruct (fle o mx tol); auto. destruct (construct_ws_from_kkt_mt _ _ _ _ _) as [[ws wz]|]; cbn [bind]; auto.
  rewrite (inner_K_mt _ _ _ _ _ _ K v K' v' ws wz _ _ _ _ (mzeros o (S K') (wz * n_tasks (dtargets ds)))). destruct (inner_loop_mt _ _ _ _ _ _ _ _ _ _ _ _ _ _ _ _ _ _ _) as [[w1 Xw1]|]; cbn [bind]; auto.
Qed.
Lemma bcd_K ds d q ws0 it me tol K v K' v' : block_coordinate_descent o dm df pen srt ds d q ws0 it me tol K false v = block_coordinate_descent o dm df pen srt ds d q ws0 it me tol K' false v'.
Proof using. unfold block_coordinate_descent. destruct (dm_n_features _ _); cbn [bind]; auto. destruct (dfm_initialize _ _ _); cbn [bind]; auto. apply outer_K_mt. Qed.
Lemma bcd_ws ds d q ws0 ws1 it me tol K acc v p : dm_n_features dm (design_matrix ds) = Ret p -> p <= ws0 -> p <= ws1 ->
  block_coordinate_descent o dm df pen srt ds d q ws0 it me tol K acc v = block_coordinate_descent o dm df pen srt ds d q ws1 it me tol K acc v.
Proof using.
  intros Ep H0 H1. unfold block_coordinate_descent. rewrite Ep. cbn [bind]. destruct (dfm_initialize _ _ _); cbn [bind]; auto.
  replace (if p <? ws0 then p else ws0) with p; [replace (if p <? ws1 then p else ws1) with p; auto|]; destruct (p <? _) eqn:B; auto; apply Nat.ltb_ge in B; lia.
Qed.
Lemma bcd_none ds d q ws0 it me tol K acc v w p : dm_n_features dm (design_matrix ds) = Ret p -> me = 0 \/ it = 0 ->
  block_coordinate_descent o dm df pen srt ds d q ws0 it me tol K acc v = Ret w -> w = Mat p (n_tasks (dtargets ds)) (repeat (repeat (f0 o) (n_tasks (dtargets ds))) p).
Proof using.
  intros Ep H. unfold block_coordinate_descent. rewrite Ep. cbn [bind]. destruct (dfm_initialize _ _ _) as [d'|]; cbn [bind]; [|discriminate].
  generalize (if p <? ws0 then p else ws0) as z. generalize (mzeros o (n_samples (dtargets ds)) (n_tasks (dtargets ds))) as Xw. unfold mzeros, mfill. destruct H as [-> | ->]; [|cbn; congruence].
  induction it as [|it IH]; intros Xw z; cbn [outer_loop_mt]; [congruence|].
  destruct (opt_cond_violation_mt _ _ _ _ _ _ _ _) as [[kkt mx]|]; cbn [bind]; [|discriminate]. destruct (fle o mx tol); [congruence|]. destruct (construct_ws_from_kkt_mt _ _ _ _ _) as [[ws wz]|]; cbn [bind]; [|discriminate].
  cbn [seq inner_loop_mt bind]. apply IH.
Qed.
End BCD.
