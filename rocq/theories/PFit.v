(** Every fit on finite data in exact arithmetic is a run of the reference solver. *)
From Coq Require Import List ZArith Bool Arith Reals Lra Lia.
From Verif Require Import Ops Arr XR SpecPen VecR MUtils MDatasets MDatafits MDatafitsMT MPenalties MBlockPenalties MCd MBcd PBase RSum SpecLin SpecData PData PDatafit PDataProps SpecSolve PNoPanic PLaws PRef PRefCD PRefBCD PRefPen PSim.
Import ListNotations.
Open Scope R_scope.

Lemma Sum_sq_nonneg n f : 0 <= Sum n (fun i => f i * f i).
Proof. apply Sum_nonneg. intros. nra. Qed.
Lemma Lq_nonneg n X j : (1 <= n)%nat -> 0 <= Lq n X j.
Proof. intros Hn. pose proof (INR_npos n Hn). apply Rmult_le_pos; [apply Sum_sq_nonneg|left; apply Rinv_0_lt_compat; auto]. Qed.
Lemma Ll_nonneg n X j : (1 <= n)%nat -> 0 <= Ll n X j.
Proof. intros Hn. pose proof (INR_npos n Hn). apply Rmult_le_pos; [apply Sum_sq_nonneg|left; apply Rinv_0_lt_compat; lra]. Qed.
Lemma inv_step_pos L : 0 <= L -> L <> 0 -> 0 < 1 / L.
Proof. intros. apply Rmult_lt_0_compat; [lra|apply Rinv_0_lt_compat; lra]. Qed.
Lemma vscale1 v : vscale 1 v = v.
Proof. unfold vscale. rewrite <- (map_id v) at 2. apply map_ext. intros. ring. Qed.


(** *** the problems *)
Definition quadP n p X (y : nat -> R) prox pv dist : problem :=
  single_problem n p X (quad_loss_mt n 1 (fun i _ => y i)) (gq n X (fun i _ => y i)) (Lq n X) prox pv dist.
Definition logP n p X (y : nat -> R) prox pv dist : problem :=
  single_problem n p X (logloss n y) (glT n X y) (Ll n X) prox pv dist.
Definition mtP n p T X Y prox pv dist : problem := Problem n p T X (quad_loss_mt n T Y) (gq n X Y) (Lq n X) prox pv dist.

Lemma df_ok_L {DM D} (df : Datafit xr DM D) d ds n p f g L L' : (forall j, (j < p)%nat -> L j = L' j) ->
  df_ok df d ds n p f g L -> df_ok df d ds n p f g L'.
Proof. intros E [H1 H2 H3 H4]. constructor; auto. rewrite H4. apply xv_ext. auto. Qed.
Lemma dfm_ok_L {DM D} (df : DatafitMT xr DM D) d ds n p T f g L L' : (forall j, (j < p)%nat -> L j = L' j) ->
  dfm_ok df d ds n p T f g L -> dfm_ok df d ds n p T f g L'.
Proof. intros E [H1 H2 H3 H4]. constructor; auto. rewrite H4. apply xv_ext. auto. Qed.

Section Fits.
Context (srt : list xr -> list nat) (VS : valid_sort xops srt) (n p : nat) (Hn : (1 <= n)%nat).
Section Single.
Context {P : Type} (pen : Penalty xr P) (q : P) (prox : R -> R -> R) (pv : R -> R) (dist : R -> R -> R)
  (HP : pen_ok pen q prox pv dist (fun s => 0 < s)) (y : nat -> R) (t : targets xr) (Ht : single_target_of n y t).
Variables (ws0 it me : nat) (tol : xr) (K : nat) (acc v : bool).
Definition run1 (PB : problem) : res (list xr) := bind (rsolve PB srt tol K acc ws0 me it) (fun st => Ret (vW p (fst st))).

Lemma quad_dense_fit X d0 :
  coordinate_descent xops (dense_dm xops) (quad_dense xops) pen srt (Dataset (xm n p X) t) d0 q ws0 it me tol K acc v = run1 (quadP n p X y prox pv dist).
Proof.
  destruct (quad_dense_ok n p X Hn t y d0 Ht) as (d & E & HF).
  apply (cd_ref _ _ _ srt VS n p (Dataset (xm n p X) t) q d X _ _ (Lq n X) _ _ _ _ (dense_ok n p X) HF HP (target_n n y t Ht)); auto.
  intros j Hj HL. apply inv_step_pos; auto. apply Lq_nonneg; auto.
Qed.
Lemma quad_sparse_fit E c d0 : csc_of n p E c -> no_repeats p E ->
  coordinate_descent xops (sparse_dm xops) (quad_sparse xops) pen srt (Dataset c t) d0 q ws0 it me tol K acc v = run1 (quadP n p (entry E) y prox pv dist).
Proof.
  intros HC HR. destruct (quad_sparse_ok n p E c Hn HC t y d0 Ht) as (d & Ed & HF).
  apply (df_ok_L _ _ _ _ _ _ _ _ (Lq n (entry E)) (fun j Hj => sqs_Lq n p E c j Hn HC HR Hj)) in HF.
  apply (cd_ref _ _ _ srt VS n p (Dataset c t) q d (entry E) _ _ (Lq n (entry E)) _ _ _ _ (sparse_ok n p E c HC) HF HP (target_n n y t Ht)); auto.
  intros j Hj HL. apply inv_step_pos; auto. apply Lq_nonneg; auto.
Qed.
Lemma log_dense_fit X d0 :
  coordinate_descent xops (dense_dm xops) (log_dense xops) pen srt (Dataset (xm n p X) t) d0 q ws0 it me tol K acc v = run1 (logP n p X y prox pv dist).
Proof.
  destruct (log_dense_ok n p X t y d0 Hn Ht) as (d & E & HF).
  apply (cd_ref _ _ _ srt VS n p (Dataset (xm n p X) t) q d X _ _ (Ll n X) _ _ _ _ (dense_ok n p X) HF HP (target_n n y t Ht)); auto.
  intros j Hj HL. apply inv_step_pos; auto. apply Ll_nonneg; auto.
Qed.
Lemma log_sparse_fit E c d0 : csc_of n p E c -> no_repeats p E ->
  coordinate_descent xops (sparse_dm xops) (log_sparse xops) pen srt (Dataset c t) d0 q ws0 it me tol K acc v = run1 (logP n p (entry E) y prox pv dist).
Proof.
  intros HC HR. destruct (log_sparse_ok n p E c t y d0 Hn HC Ht) as (d & Ed & HF).
  apply (df_ok_L _ _ _ _ _ _ _ _ (Ll n (entry E)) (fun j Hj => sqs_Ll n p E c j Hn HC HR Hj)) in HF.
  apply (cd_ref _ _ _ srt VS n p (Dataset c t) q d (entry E) _ _ (Ll n (entry E)) _ _ _ _ (sparse_ok n p E c HC) HF HP (target_n n y t Ht)); auto.
  intros j Hj HL. apply inv_step_pos; auto. apply Ll_nonneg; auto.
Qed.
End Single.
Section Multi.
Context {P : Type} (T : nat) (pen : PenaltyMT xr P) (q : P) (prox : list R -> R -> list R) (pv : list R -> R) (dist : list R -> list R -> R)
  (HP : bpen_ok T pen q prox pv dist (fun s => 0 < s)) (Y : rmat) (t : targets xr) (Ht : multi_target_of n T Y t).
Variables (ws0 it me : nat) (tol : xr) (K : nat) (acc v : bool).
Definition runT (PB : problem) : res (mat xr) := bind (rsolve PB srt tol K acc ws0 me it) (fun st => Ret (xm p T (fst st))).
Lemma mt_dense_fit X d0 :
  block_coordinate_descent xops (dense_dm xops) (qmt_dense xops) pen srt (Dataset (xm n p X) t) d0 q ws0 it me tol K acc v = runT (mtP n p T X Y prox pv dist).
Proof.
  destruct (qmt_dense_ok n p T X t Y d0 Hn Ht) as (d & E & HF). destruct (target_mt_n n T Y t Ht) as (H1 & H2 & _).
  apply (bcd_ref _ _ _ srt VS n p T (Dataset (xm n p X) t) q d X _ _ (Lq n X) _ _ _ _ (dense_ok n p X) HF HP H1 H2); auto.
  intros j Hj HL. apply inv_step_pos; auto. apply Lq_nonneg; auto.
Qed.
Lemma mt_sparse_fit E c d0 : csc_of n p E c -> no_repeats p E ->
  block_coordinate_descent xops (sparse_dm xops) (qmt_sparse xops) pen srt (Dataset c t) d0 q ws0 it me tol K acc v = runT (mtP n p T (entry E) Y prox pv dist).
Proof.
  intros HC HR. destruct (qmt_sparse_ok n p T E c t Y d0 Hn HC Ht) as (d & Ed & HF). destruct (target_mt_n n T Y t Ht) as (H1 & H2 & _).
  apply (dfm_ok_L _ _ _ _ _ _ _ _ _ (Lq n (entry E)) (fun j Hj => sqs_Lq n p E c j Hn HC HR Hj)) in HF.
  apply (bcd_ref _ _ _ srt VS n p T (Dataset c t) q d (entry E) _ _ (Lq n (entry E)) _ _ _ _ (sparse_ok n p E c HC) HF HP H1 H2); auto.
  intros j Hj HL. apply inv_step_pos; auto. apply Lq_nonneg; auto.
Qed.
End Multi.
End Fits.
