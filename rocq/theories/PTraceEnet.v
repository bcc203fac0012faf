(** What an elastic-net fit in floating point that stops early is worth. *)
From Coq Require Import List ZArith Bool Arith Lia Reals Lra.
From Flocq Require Import Core BinarySingleNaN.
From Verif Require Import Ops Arr XR IEEE RSum SpecPen SpecRound SpecData SpecSolve SpecOpt SpecTrace SpecDrift SpecDriftEnet PBase PLaws PNullLaws PSubdiff PFloat PRoundFit PRoundKkt PRoundTop PTrace PDrift PDriftInst PData PDataProps PDatafit PCalc PFitOpt PCert PRoundCert PTraceFit PRoundEnet MUtils MDatasets MDatafits MPenalties MCd MHyper MEstimators.
Import ListNotations.
Open Scope R_scope.

Section I.
Context (prec emax : Z) (Hp : Prec_gt_0 prec) (Hm : Prec_lt_emax prec emax) (m : libm prec emax).
Local Notation bf := (binary_float prec emax).
Local Notation o := (ieee_ops prec emax Hp Hm m).
Local Notation u := (urd prec).
Local Notation atR := (atR prec emax).
Local Notation finite := (finite prec emax).
Local Notation tgt t := (fun i => nth i (tgtR prec emax t) 0).
Local Notation key := (key prec emax).

Lemma violation_at_en {DM D} (df : Datafit bf DM D) ds w Xw ws d q kkt mx k sc : opt_cond_violation df (l1l2_penalty o) ds w Xw ws d q = Ret (kkt, mx) -> nth_error kkt k = Some sc ->
  exists j wj g, nth_error ws k = Some j /\ nth_error w j = Some wj /\ df_gradient_j df d ds Xw j = Ret g /\ sc = l1l2_score o q wj g.
Proof.
  intros H Hk. unfold opt_cond_violation in H. destruct (construct_grad df ds Xw ws d) as [gr|] eqn:Eg; [|discriminate]. cbn [bind l1l2_penalty pen_subdiff_distance] in H. unfold scores in H.
  destruct (mapM _ (combine gr ws)) as [sc'|] eqn:Es; [|discriminate]. cbn [bind] in H. injection H as <- _. unfold construct_grad in Eg. apply mapM_inv in Eg, Es.
  revert sc' k gr Es Eg Hk. induction ws as [|j ws IH]; intros sc' k gr Es Eg Hk.
  - inversion Eg; subst. inversion Es; subst. destruct k; discriminate.
  - inversion Eg as [|? g ? gr' Q1 Q2]; subst. inversion Es as [|? s0 ? sc0 Q3 Q4]; subst. destruct k as [|k].
    + injection Hk as ->. cbn [fst snd] in Q3. unfold vget in Q3. destruct (nth_error w j) as [wj|] eqn:Ew; [|discriminate]. cbn [bind] in Q3. injection Q3 as <-. exists j, wj, g. auto.
    + cbn [nth_error] in Hk |- *. eapply IH; eauto.
Qed.

Section G.
Context {DM D : Type} (dm : DesignMatrix bf DM) (df : Datafit bf DM D) (ds : dataset DM bf) (n p : nat) (E : nat -> nat -> R) (y : nat -> R).
Context (a r : bf) (Fa : finite a) (Fr : finite r) (Ha : 0 < B2R a) (Hr : 0 <= B2R r <= 1).
Local Notation q := (L1PlusL2 a r).
Local Notation ps := (pen_slack prec emax (B2R a) (B2R r)).
Lemma certified_en d w Xw M tol (GE : forall j g, (j < p)%nat -> df_gradient_j df d ds Xw j = Ret g -> finite g ->
  (forall i, (i < n)%nat -> E i j = 0 \/ finite (nth i Xw (f0 o))) /\
  Rabs (B2R g - (Sum n (fun i => E i j * atR Xw i) - Sum n (fun i => E i j * y i)) / INR n) <=
    rel u (n + 2) * (Sum n (fun i => Rabs (E i j) * (Rabs (atR Xw i) + Rabs (y i))) / INR n) + 3 * (1 + u) ^ (n + 2) * tiny prec emax) :
  (0 < n)%nat -> finite tol -> length w = p -> (forall x, In x w -> finite x) ->
  tracks prec emax E p n M (w, Xw) -> tested o df (l1l2_penalty o) ds d q p tol true (w, Xw) ->
  (forall j g, (j < p)%nat -> df_gradient_j df d ds Xw j = Ret g -> finite g) ->
  forall eps, (forall j, (j < p)%nat -> B2R tol + (1 + u) * (slack prec emax E p n y (atR w) M j + ps (atR w j)) <= (1 - u) * eps) ->
  stationary eps (loss1 Squared n y) p E (pen1 (EnetPen (B2R a) (B2R r))) (atR w).
Proof using Fa Fr Ha Hr.
  intros Pn Ft Lw Fw HT (kkt & mx & EO & EL) NN eps HE j Hj. cbn [fst snd] in *.
  assert (LK : length kkt = p). { rewrite <- (seq_length p 0). exact (ocv_len df (l1l2_penalty o) ds d q (one_enet o q) w Xw _ _ _ EO). }
  destruct (nth_error kkt j) as [sc|] eqn:Ek; [|apply nth_error_None in Ek; lia].
  destruct (violation_at_en df ds w Xw (seq 0 p) d q kkt mx j sc EO Ek) as (j' & wj & g & Ej & Ew & Eg & Es).
  assert (j' = j). { rewrite (nth_error_nth' _ 0%nat) in Ej by (rewrite seq_length; exact Hj). rewrite seq_nth in Ej by exact Hj. injection Ej as <-. reflexivity. } subst j'.
  pose proof (Fw wj (nth_error_In _ _ Ew)) as Fwj. pose proof (NN j g Hj Eg) as Fg.
  assert (E0 : mx = fold_max o (fninf o) kkt).
  { unfold opt_cond_violation in EO. destruct (construct_grad df ds Xw (seq 0 p) d) as [gr|]; [|discriminate]. cbn [bind l1l2_penalty pen_subdiff_distance] in EO. unfold scores in EO. destruct (mapM _ _) as [sc'|]; [|discriminate]. cbn [bind] in EO. injection EO as <- <-. reflexivity. }
  assert (SL : is_nan sc = false -> Bleb sc tol = true).
  { intros Ns. pose proof (fold_max_ge prec emax Hp Hm m kkt (fninf o) sc (nth_error_In _ _ Ek) Ns) as Q. rewrite <- E0 in Q. cbn [ieee_ops fle] in EL. rewrite key_le in Q, EL |- *. exact (xle_trans _ _ _ Q EL). }
  subst sc. pose proof (exact_grad prec emax Hp Hm m df ds d n p E y w Xw GE M j g Pn Hj HT Eg Fg) as EG.
  destruct (passed prec emax Hp Hm m a r Fa Fr Ha Hr wj g tol _ _ Fwj Fg Ft SL EG) as (dist & ID & BD). assert (EW : atR w j = B2R wj) by (rewrite (atR_nth prec emax Hp Hm m); f_equal; apply nth_error_nth; exact Ew).
  exists dist. split.
  - exists (gq n E (fun i _ => y i) (fun i _ => lin p E (atR w) i) j 0%nat). split; [apply (quad_deriv n p E y (atR w) j); [lia|exact Hj]|]. rewrite EW. exact ID.
  - specialize (HE j Hj). rewrite EW in HE. pose proof (u_le1 prec Hp) as U2. assert (Q : (1 - u) * dist <= (1 - u) * eps) by lra. apply Rmult_le_reg_l in Q; lra.
Qed.
Definition near_optimal_if_passed_en d (tol : bf) (maxit k : nat) s0 js (w Xw : list bf) : Prop :=
  k = maxit \/ ((forall j g, (j < p)%nat -> df_gradient_j df d ds Xw j = Ret g -> finite g) -> (forall x, In x w -> finite x) ->
    forall eps, (forall j, (j < p)%nat -> B2R tol + (1 + u) * (slack prec emax E p n y (atR w) (history prec emax o dm df (l1l2_penalty o) ds d q p js s0) j + ps (atR w j)) <= (1 - u) * eps) ->
    forall v, objective (loss1 Squared n y) p E (pen1 (EnetPen (B2R a) (B2R r))) (atR w) <= objective (loss1 Squared n y) p E (pen1 (EnetPen (B2R a) (B2R r))) v + eps * Sum p (fun j => Rabs (atR w j - v j))).
Lemma c83_en srt d0 s w : valid_sort o srt -> dm_n_features dm (design_matrix ds) = Ret p -> n_samples (dtargets ds) = n -> (0 < n)%nat ->
  (forall d js s0 s1, origin prec emax o dm ds p n s0 -> foldM (cd_step o dm df (l1l2_penalty o) ds d q) js s0 = Ret s1 -> tracks prec emax E p n (history prec emax o dm df (l1l2_penalty o) ds d q p js s0) s1) ->
  (forall d Xw j g, df_initialize df d0 ds = Ret d -> df_gradient_j df d ds Xw j = Ret g -> finite g ->
    (forall i, (i < n)%nat -> E i j = 0 \/ finite (nth i Xw (f0 o))) /\
    Rabs (B2R g - (Sum n (fun i => E i j * atR Xw i) - Sum n (fun i => E i j * y i)) / INR n) <=
    rel u (n + 2) * (Sum n (fun i => Rabs (E i j) * (Rabs (atR Xw i) + Rabs (y i))) / INR n) + 3 * (1 + u) ^ (n + 2) * tiny prec emax) ->
  finite (s_tolerance s) -> solve o srt dm df (l1l2_penalty o) s ds d0 q = Ret w ->
  exists d k s0 js Xw, df_initialize df d0 ds = Ret d /\ (k <= s_max_iterations s)%nat /\
    rounds o dm df (l1l2_penalty o) ds d q p n (s_tolerance s) (s_max_epochs s * p) k (zero_state o p n) (w, Xw) /\
    origin prec emax o dm ds p n s0 /\ (length js <= k * (s_max_epochs s * p))%nat /\
    foldM (cd_step o dm df (l1l2_penalty o) ds d q) js s0 = Ret (w, Xw) /\
    near_optimal_if_passed_en d (s_tolerance s) (s_max_iterations s) k s0 js w Xw.
Proof using Fa Fr Ha Hr.
  intros VS NF NS Pn TR GE Ft EF. destruct (c81 o dm df (l1l2_penalty o) srt ds d0 q s w p VS (one_enet o q) NF EF) as (d & k & Xw & EI & Hk & HR & HT).
  rewrite NS in HR. destruct (rounds_run _ _ _ _ _ _ _ _ _ _ _ _ _ _ HR) as (s0 & js & HO & HL & HS).
  exists d, k, s0, js, Xw. split; [exact EI|]. split; [exact Hk|]. split; [exact HR|]. split; [exact HO|]. split; [exact HL|]. split; [exact HS|].
  destruct HT as [HT|HT]; [left; exact HT|right]. intros NN Fw eps HE v.
  assert (LW : length w = p).
  { change w with (fst (w, Xw)). rewrite (steps_wlen o dm df (l1l2_penalty o) ds d q _ _ _ HS). destruct HO as [->|(ws & _ & _ & L & _)]; [apply repeat_length|exact L]. }
  apply c28_single; [exact Pn|split; [lra|exact Hr]|exact I|].
  apply (certified_en d w Xw (history prec emax o dm df (l1l2_penalty o) ds d q p js s0) (s_tolerance s) (fun j g _ => GE d Xw j g EI) Pn Ft LW Fw (TR d js s0 (w, Xw) HO HS) HT NN eps HE).
Qed.
End G.
Lemma c83_en_dense (RD : reduces prec emax Hp Hm m) srt n p X t v w : valid_sort o srt -> (Z.of_nat n <= 2 ^ prec)%Z -> (0 < n)%nat -> shaped n p X -> target1_wf n t ->
  finite (p_alpha v) -> 0 < B2R (p_alpha v) -> finite (p_shape v) -> 0 <= B2R (p_shape v) <= 1 -> finite (p_tolerance v) -> elastic_net_fit_dense o srt v (Dataset X t) = Ret w ->
  exists d k s0 js Xw, df_initialize (quad_dense o) (quadratic_new o) (Dataset X t) = Ret d /\ (k <= p_max_iterations v)%nat /\
    rounds o (dense_dm o) (quad_dense o) (l1l2_penalty o) (Dataset X t) d (L1PlusL2 (p_alpha v) (p_shape v)) p n (p_tolerance v) (p_max_epochs v * p) k (zero_state o p n) (w, Xw) /\
    origin prec emax o (dense_dm o) (Dataset X t) p n s0 /\ (length js <= k * (p_max_epochs v * p))%nat /\
    foldM (cd_step o (dense_dm o) (quad_dense o) (l1l2_penalty o) (Dataset X t) d (L1PlusL2 (p_alpha v) (p_shape v))) js s0 = Ret (w, Xw) /\
    near_optimal_if_passed_en (dense_dm o) (quad_dense o) (Dataset X t) n p (entR prec emax X) (tgt t) (p_alpha v) (p_shape v) d (p_tolerance v) (p_max_iterations v) k s0 js w Xw.
Proof.
  intros VS Hn Pn SX WT Fa Ha Fr Hr Ft EF. assert (NS : n_samples t = n) by (destruct t; [exact WT|exact (proj1 WT)]).
  apply (c83_en (dense_dm o) (quad_dense o) (Dataset X t) n p (entR prec emax X) (tgt t) (p_alpha v) (p_shape v) Fa Fr Ha Hr srt (quadratic_new o)
    (Solver (p_ws_start_size v) (p_max_iterations v) (p_max_epochs v) (p_tolerance v) (p_K v) (p_use_acceleration v) (p_verbose v)) w VS); auto.
  - destruct SX as (_ & C & _). cbn [dense_dm dm_n_features design_matrix]. rewrite C. reflexivity.
  - intros d js s0 s1. apply (c82_dense prec emax Hp Hm m RD); exact SX.
  - intros d Xw j g EI EG Fg. exact (dense_ge prec emax Hp Hm m RD n p X t (quadratic_new o) d Xw j g Hn SX WT EI EG Fg).
Qed.
Lemma c83_en_sparse srt n p cs X t v w : valid_sort o srt -> (Z.of_nat n <= 2 ^ prec)%Z -> (0 < n)%nat -> stores prec emax n p cs X -> target1_wf n t ->
  finite (p_alpha v) -> 0 < B2R (p_alpha v) -> finite (p_shape v) -> 0 <= B2R (p_shape v) <= 1 -> finite (p_tolerance v) -> elastic_net_fit_sparse o srt v (Dataset X t) = Ret w ->
  exists d k s0 js Xw, df_initialize (quad_sparse o) (quadratic_new o) (Dataset X t) = Ret d /\ (k <= p_max_iterations v)%nat /\
    rounds o (sparse_dm o) (quad_sparse o) (l1l2_penalty o) (Dataset X t) d (L1PlusL2 (p_alpha v) (p_shape v)) p n (p_tolerance v) (p_max_epochs v * p) k (zero_state o p n) (w, Xw) /\
    origin prec emax o (sparse_dm o) (Dataset X t) p n s0 /\ (length js <= k * (p_max_epochs v * p))%nat /\
    foldM (cd_step o (sparse_dm o) (quad_sparse o) (l1l2_penalty o) (Dataset X t) d (L1PlusL2 (p_alpha v) (p_shape v))) js s0 = Ret (w, Xw) /\
    near_optimal_if_passed_en (sparse_dm o) (quad_sparse o) (Dataset X t) n p (storedR prec emax cs) (tgt t) (p_alpha v) (p_shape v) d (p_tolerance v) (p_max_iterations v) k s0 js w Xw.
Proof.
  intros VS Hn Pn ST WT Fa Ha Fr Hr Ft EF. assert (NS : n_samples t = n) by (destruct t; [exact WT|exact (proj1 WT)]).
  apply (c83_en (sparse_dm o) (quad_sparse o) (Dataset X t) n p (storedR prec emax cs) (tgt t) (p_alpha v) (p_shape v) Fa Fr Ha Hr srt (quadratic_new o)
    (Solver (p_ws_start_size v) (p_max_iterations v) (p_max_epochs v) (p_tolerance v) (p_K v) (p_use_acceleration v) (p_verbose v)) w VS); auto.
  - cbn [sparse_dm dm_n_features design_matrix]. unfold csc_n_features. rewrite (proj1 ST). cbn. reflexivity.
  - intros d js s0 s1. apply (c82_sparse prec emax Hp Hm m); exact ST.
  - intros d Xw j g EI EG Fg. exact (sparse_ge prec emax Hp Hm m n p cs X ST t (quadratic_new o) d Xw j g Hn WT EI EG Fg).
Qed.
End I.
