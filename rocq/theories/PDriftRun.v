(** The fit held by the solver at the end of a floating-point run. *)
From Coq Require Import List ZArith Bool Arith Lia Reals Lra.
From Flocq Require Import Core BinarySingleNaN.
From Verif Require Import Ops Arr IEEE RSum SpecRound SpecData SpecSolve SpecTrace SpecDrift PTrace PDrift PDriftInst MUtils MDatasets MDatafits MPenalties MCd MHyper MEstimators.
Import ListNotations.

Section I.
Context (prec emax : Z) (Hp : Prec_gt_0 prec) (Hm : Prec_lt_emax prec emax) (m : libm prec emax).
Local Notation bf := (binary_float prec emax).
Local Notation o := (ieee_ops prec emax Hp Hm m).

Lemma c82_run {DM D P} (dm : DesignMatrix bf DM) (df : Datafit bf DM D) (pen : Penalty bf P) srt ds d q s w n p E : valid_sort o srt -> one_score_each pen q ->
  dm_n_features dm (design_matrix ds) = Ret p -> n_samples (dtargets ds) = n ->
  (forall d' js s0 s1, origin prec emax o dm ds p n s0 -> foldM (cd_step o dm df pen ds d' q) js s0 = Ret s1 -> tracks prec emax E p n (history prec emax o dm df pen ds d' q p js s0) s1) ->
  solve o srt dm df pen s ds d q = Ret w ->
  exists d' k s0 js Xw, df_initialize df d ds = Ret d' /\ (k <= s_max_iterations s)%nat /\
    (k = s_max_iterations s \/ tested o df pen ds d' q p (s_tolerance s) true (w, Xw)) /\
    origin prec emax o dm ds p n s0 /\ (length js <= k * (s_max_epochs s * p))%nat /\ foldM (cd_step o dm df pen ds d' q) js s0 = Ret (w, Xw) /\
    tracks prec emax E p n (history prec emax o dm df pen ds d' q p js s0) (w, Xw).
Proof.
  intros VS OS NF NS TR EF. destruct (c81 o dm df pen srt ds d q s w p VS OS NF EF) as (d' & k & Xw & EI & Hk & HR & HT).
  rewrite NS in HR. destruct (rounds_run _ _ _ _ _ _ _ _ _ _ _ _ _ _ HR) as (s0 & js & HO & HL & HS).
  exists d', k, s0, js, Xw. repeat (split; [assumption|]). exact (TR d' js s0 (w, Xw) HO HS).
Qed.
Lemma c82_run_dense {D P} (RD : reduces prec emax Hp Hm m) (df : Datafit bf (mat bf) D) (pen : Penalty bf P) srt n p X t d q s w : valid_sort o srt -> one_score_each pen q ->
  shaped n p X -> n_samples t = n -> solve o srt (dense_dm o) df pen s (Dataset X t) d q = Ret w ->
  exists d' k s0 js Xw, df_initialize df d (Dataset X t) = Ret d' /\ (k <= s_max_iterations s)%nat /\
    (k = s_max_iterations s \/ tested o df pen (Dataset X t) d' q p (s_tolerance s) true (w, Xw)) /\
    origin prec emax o (dense_dm o) (Dataset X t) p n s0 /\ (length js <= k * (s_max_epochs s * p))%nat /\ foldM (cd_step o (dense_dm o) df pen (Dataset X t) d' q) js s0 = Ret (w, Xw) /\
    tracks prec emax (entR prec emax X) p n (history prec emax o (dense_dm o) df pen (Dataset X t) d' q p js s0) (w, Xw).
Proof.
  intros VS OS SX NS. apply c82_run; auto.
  - destruct SX as (_ & C & _). cbn [dense_dm dm_n_features design_matrix]. rewrite C. reflexivity.
  - intros d' js s0 s1. apply (c82_dense prec emax Hp Hm m RD); exact SX.
Qed.
Lemma c82_run_sparse {D P} (df : Datafit bf (csc bf) D) (pen : Penalty bf P) srt n p cs X t d q s w : valid_sort o srt -> one_score_each pen q ->
  stores prec emax n p cs X -> n_samples t = n -> solve o srt (sparse_dm o) df pen s (Dataset X t) d q = Ret w ->
  exists d' k s0 js Xw, df_initialize df d (Dataset X t) = Ret d' /\ (k <= s_max_iterations s)%nat /\
    (k = s_max_iterations s \/ tested o df pen (Dataset X t) d' q p (s_tolerance s) true (w, Xw)) /\
    origin prec emax o (sparse_dm o) (Dataset X t) p n s0 /\ (length js <= k * (s_max_epochs s * p))%nat /\ foldM (cd_step o (sparse_dm o) df pen (Dataset X t) d' q) js s0 = Ret (w, Xw) /\
    tracks prec emax (storedR prec emax cs) p n (history prec emax o (sparse_dm o) df pen (Dataset X t) d' q p js s0) (w, Xw).
Proof.
  intros VS OS ST NS. apply c82_run; auto.
  - cbn [sparse_dm dm_n_features design_matrix]. unfold csc_n_features. rewrite (proj1 ST). cbn. reflexivity.
  - intros d' js s0 s1. apply (c82_sparse prec emax Hp Hm m); exact ST.
Qed.
End I.
