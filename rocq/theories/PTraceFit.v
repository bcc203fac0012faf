(** Floating-point Lasso fits: course of the run and what a passed test certifies. *)
From Coq Require Import List ZArith Bool Arith Lia Reals Lra.
From Flocq Require Import Core BinarySingleNaN.
From Verif Require Import Ops Arr XR IEEE RSum SpecPen SpecRound SpecData SpecSolve SpecOpt SpecTrace SpecDrift PBase PFloat PRoundFit PTrace PDrift PDriftInst PRoundCert PDatafit PCert MUtils MDatasets MDatafits MPenalties MCd MHyper MEstimators.
Import ListNotations.
Open Scope R_scope.

Lemma scores_len {F} (o : FOps F) f (w g : list F) ws sc mx : length g = length ws -> scores o f w g ws = Ret (sc, mx) -> length sc = length ws.
Proof.
  intros L. unfold scores. destruct (mapM _ _) as [l|] eqn:Em; [|discriminate]. cbn [bind]. intros Q. injection Q as <- _. apply mapM_inv in Em.
  assert (Q : length l = length (combine g ws)) by (clear - Em; induction Em; cbn [length]; congruence). rewrite Q, combine_length. lia.
Qed.
Lemma one_l1 {F} (o : FOps F) q : one_score_each (l1_penalty o) q.
Proof. intros w g ws sc mx L H. exact (scores_len o _ w g ws sc mx L H). Qed.
Lemma one_enet {F} (o : FOps F) q : one_score_each (l1l2_penalty o) q.
Proof. intros w g ws sc mx L H. exact (scores_len o _ w g ws sc mx L H). Qed.
Lemma one_mcp {F} (o : FOps F) q : one_score_each (mcp_penalty o) q.
Proof. intros w g ws sc mx L H. exact (scores_len o _ w g ws sc mx L H). Qed.

Section I.
Context (prec emax : Z) (Hp : Prec_gt_0 prec) (Hm : Prec_lt_emax prec emax) (m : libm prec emax).
Local Notation bf := (binary_float prec emax).
Local Notation o := (ieee_ops prec emax Hp Hm m).
Local Notation u := (urd prec).
Local Notation atR := (atR prec emax).
Local Notation finite := (finite prec emax).
Local Notation tgt t := (fun i => nth i (tgtR prec emax t) 0).

Section G.
Context {DM D : Type} (dm : DesignMatrix bf DM) (df : Datafit bf DM D) (ds : dataset DM bf) (n p : nat) (E : nat -> nat -> R) (y : nat -> R).
Definition near_optimal_if_passed d (a tol : bf) (maxit k : nat) s0 js (w Xw : list bf) : Prop :=
  k = maxit \/ ((forall j g, (j < p)%nat -> df_gradient_j df d ds Xw j = Ret g -> is_nan g = false) -> (forall x, In x w -> finite x) ->
    forall eps, (forall j, (j < p)%nat -> B2R tol + (1 + u) * slack prec emax E p n y (atR w) (history prec emax o dm df (l1_penalty o) ds d (L1 a) p js s0) j <= (1 - u) * eps) ->
    forall v, objective (loss1 Squared n y) p E (pen1 (LassoPen (B2R a))) (atR w) <= objective (loss1 Squared n y) p E (pen1 (LassoPen (B2R a))) v + eps * Sum p (fun j => Rabs (atR w j - v j))).

Lemma c83 srt d0 a s w : valid_sort o srt -> dm_n_features dm (design_matrix ds) = Ret p -> n_samples (dtargets ds) = n -> (0 < n)%nat ->
  (forall d js s0 s1, origin prec emax o dm ds p n s0 -> foldM (cd_step o dm df (l1_penalty o) ds d (L1 a)) js s0 = Ret s1 -> tracks prec emax E p n (history prec emax o dm df (l1_penalty o) ds d (L1 a) p js s0) s1) ->
  (forall d Xw j g, df_initialize df d0 ds = Ret d -> df_gradient_j df d ds Xw j = Ret g -> finite g ->
    (forall i, (i < n)%nat -> E i j = 0 \/ finite (nth i Xw (f0 o))) /\
    Rabs (B2R g - (Sum n (fun i => E i j * atR Xw i) - Sum n (fun i => E i j * y i)) / INR n) <=
    rel u (n + 2) * (Sum n (fun i => Rabs (E i j) * (Rabs (atR Xw i) + Rabs (y i))) / INR n) + 3 * (1 + u) ^ (n + 2) * tiny prec emax) ->
  finite a -> 0 <= B2R a -> finite (s_tolerance s) -> solve o srt dm df (l1_penalty o) s ds d0 (L1 a) = Ret w ->
  exists d k s0 js Xw, df_initialize df d0 ds = Ret d /\ (k <= s_max_iterations s)%nat /\
    rounds o dm df (l1_penalty o) ds d (L1 a) p n (s_tolerance s) (s_max_epochs s * p) k (zero_state o p n) (w, Xw) /\
    origin prec emax o dm ds p n s0 /\ (length js <= k * (s_max_epochs s * p))%nat /\
    foldM (cd_step o dm df (l1_penalty o) ds d (L1 a)) js s0 = Ret (w, Xw) /\
    near_optimal_if_passed d a (s_tolerance s) (s_max_iterations s) k s0 js w Xw.
Proof.
  intros VS NF NS Pn TR GE Fa Ha Ft EF. destruct (c81 o dm df (l1_penalty o) srt ds d0 (L1 a) s w p VS (one_l1 o (L1 a)) NF EF) as (d & k & Xw & EI & Hk & HR & HT).
  rewrite NS in HR. destruct (rounds_run _ _ _ _ _ _ _ _ _ _ _ _ _ _ HR) as (s0 & js & HO & HL & HS).
  exists d, k, s0, js, Xw. split; [exact EI|]. split; [exact Hk|]. split; [exact HR|]. split; [exact HO|]. split; [exact HL|]. split; [exact HS|].
  destruct HT as [HT|HT]; [left; exact HT|right]. intros NN Fw eps HE v.
  assert (LW : length w = p).
  { change w with (fst (w, Xw)). rewrite (steps_wlen o dm df (l1_penalty o) ds d (L1 a) _ _ _ HS). destruct HO as [->|(ws & _ & _ & L & _)]; [apply repeat_length|exact L]. }
  apply c28_single; [exact Pn|exact Ha|exact I|].
  apply (certified prec emax Hp Hm m df ds d n p E y w Xw (fun j g _ => GE d Xw j g EI) (history prec emax o dm df (l1_penalty o) ds d (L1 a) p js s0) a (s_tolerance s) Pn Fa Ha Ft LW Fw (TR d js s0 (w, Xw) HO HS) HT NN eps HE).
Qed.
End G.
Lemma c83_dense (RD : reduces prec emax Hp Hm m) srt n p X t v w : valid_sort o srt -> (Z.of_nat n <= 2 ^ prec)%Z -> (0 < n)%nat -> shaped n p X -> target1_wf n t ->
  finite (p_alpha v) -> 0 <= B2R (p_alpha v) -> finite (p_tolerance v) -> lasso_fit_dense o srt v (Dataset X t) = Ret w ->
  exists d k s0 js Xw, df_initialize (quad_dense o) (quadratic_new o) (Dataset X t) = Ret d /\ (k <= p_max_iterations v)%nat /\
    rounds o (dense_dm o) (quad_dense o) (l1_penalty o) (Dataset X t) d (L1 (p_alpha v)) p n (p_tolerance v) (p_max_epochs v * p) k (zero_state o p n) (w, Xw) /\
    origin prec emax o (dense_dm o) (Dataset X t) p n s0 /\ (length js <= k * (p_max_epochs v * p))%nat /\
    foldM (cd_step o (dense_dm o) (quad_dense o) (l1_penalty o) (Dataset X t) d (L1 (p_alpha v))) js s0 = Ret (w, Xw) /\
    near_optimal_if_passed (dense_dm o) (quad_dense o) (Dataset X t) n p (entR prec emax X) (tgt t) d (p_alpha v) (p_tolerance v) (p_max_iterations v) k s0 js w Xw.
Proof.
  intros VS Hn Pn SX WT Fa Ha Ft EF. assert (NS : n_samples t = n) by (destruct t; [exact WT|exact (proj1 WT)]).
  apply (c83 (dense_dm o) (quad_dense o) (Dataset X t) n p (entR prec emax X) (tgt t) srt (quadratic_new o) (p_alpha v)
    (Solver (p_ws_start_size v) (p_max_iterations v) (p_max_epochs v) (p_tolerance v) (p_K v) (p_use_acceleration v) (p_verbose v)) w VS); auto.
  - destruct SX as (_ & C & _). cbn [dense_dm dm_n_features design_matrix]. rewrite C. reflexivity.
  - intros d js s0 s1. apply (c82_dense prec emax Hp Hm m RD); exact SX.
  - intros d Xw j g EI EG Fg. exact (dense_ge prec emax Hp Hm m RD n p X t (quadratic_new o) d Xw j g Hn SX WT EI EG Fg).
Qed.
Lemma c83_sparse srt n p cs X t v w : valid_sort o srt -> (Z.of_nat n <= 2 ^ prec)%Z -> (0 < n)%nat -> stores prec emax n p cs X -> target1_wf n t ->
  finite (p_alpha v) -> 0 <= B2R (p_alpha v) -> finite (p_tolerance v) -> lasso_fit_sparse o srt v (Dataset X t) = Ret w ->
  exists d k s0 js Xw, df_initialize (quad_sparse o) (quadratic_new o) (Dataset X t) = Ret d /\ (k <= p_max_iterations v)%nat /\
    rounds o (sparse_dm o) (quad_sparse o) (l1_penalty o) (Dataset X t) d (L1 (p_alpha v)) p n (p_tolerance v) (p_max_epochs v * p) k (zero_state o p n) (w, Xw) /\
    origin prec emax o (sparse_dm o) (Dataset X t) p n s0 /\ (length js <= k * (p_max_epochs v * p))%nat /\
    foldM (cd_step o (sparse_dm o) (quad_sparse o) (l1_penalty o) (Dataset X t) d (L1 (p_alpha v))) js s0 = Ret (w, Xw) /\
    near_optimal_if_passed (sparse_dm o) (quad_sparse o) (Dataset X t) n p (storedR prec emax cs) (tgt t) d (p_alpha v) (p_tolerance v) (p_max_iterations v) k s0 js w Xw.
Proof.
  intros VS Hn Pn ST WT Fa Ha Ft EF. assert (NS : n_samples t = n) by (destruct t; [exact WT|exact (proj1 WT)]).
  apply (c83 (sparse_dm o) (quad_sparse o) (Dataset X t) n p (storedR prec emax cs) (tgt t) srt (quadratic_new o) (p_alpha v)
    (Solver (p_ws_start_size v) (p_max_iterations v) (p_max_epochs v) (p_tolerance v) (p_K v) (p_use_acceleration v) (p_verbose v)) w VS); auto.
  - cbn [sparse_dm dm_n_features design_matrix]. unfold csc_n_features. rewrite (proj1 ST). cbn. reflexivity.
  - intros d js s0 s1. apply (c82_sparse prec emax Hp Hm m); exact ST.
  - intros d Xw j g EI EG Fg. exact (sparse_ge prec emax Hp Hm m n p cs X ST t (quadratic_new o) d Xw j g Hn WT EI EG Fg).
Qed.
End I.
