(** Multi-task counterparts of [PSens] and [PSample]. *)
From Coq Require Import List ZArith Bool Arith Reals Lra Lia.
From Verif Require Import Ops Arr MUtils MDatasets MHyper MEstimators XR SpecPen VecR PBase RSum SpecLin SpecData PDatafit PCalc PDataProps SpecSolve PLaws PSubdiff PDescent PConv PTheory SpecOpt PFitOpt PCert SpecBudget PMore SpecPath PPath PStab SpecOracle POracle SpecSample PSample.
Import ListNotations.
Open Scope R_scope.

Section Two.
Variables (n p T : nat) (Hn : (1 <= n)%nat) (X X' Y Y' : rmat) (a a' e e' : R) (W V : rmat).
Hypotheses (Ha : 0 < a) (Ha' : 0 < a')
  (H1 : stationary_mt e (quad_loss_mt n T Y) p T X (penT (MtLassoPen a)) W) (H2 : stationary_mt e' (quad_loss_mt n T Y') p T X' (penT (MtLassoPen a')) V).
Lemma two_models_mt : Sum p (fun j => Sum T (fun t => (gq n X Y (lin_mt p X W) j t - gq n X' Y' (lin_mt p X' V) j t) * (W j t - V j t))) <= (e + e' + Rabs (a - a')) * gap_mt p T W V.
Proof.
  unfold gap_mt. rewrite <- !Sum_scal. apply Sum_le. intros j Hj.
  destruct (H1 j Hj) as (d & (g & Dg & (_ & s & Hs & Ed)) & Hd). destruct (H2 j Hj) as (d' & (g' & Dg' & (_ & s' & Hs' & Ed')) & Hd').
  set (G := gq n X Y (lin_mt p X W)) in *. set (G' := gq n X' Y' (lin_mt p X' V)) in *.
  assert (Eg : forall t, (t < T)%nat -> g t = G j t) by (intros t Ht; eapply uniqueness_limite; [apply Dg; auto|apply quad_mt_deriv; auto]).
  assert (Eg' : forall t, (t < T)%nat -> g' t = G' j t) by (intros t Ht; eapply uniqueness_limite; [apply Dg'; auto|apply quad_mt_deriv; auto]).
  pose proof (proj1 Hs) as Hl. pose proof (proj1 Hs') as Hl'.
  change (map (W j) (seq 0 T)) with (tab T (W j)) in Hs. change (map (V j) (seq 0 T)) with (tab T (V j)) in Hs'.
  pose proof (vsubgrad_global (MtLassoPen a) T _ _ Ha I Hs (V j)) as Q1. pose proof (vsubgrad_global (MtLassoPen a') T _ _ Ha' I Hs' (W j)) as Q2. cbn [penT] in Q1, Q2.
  change (map (fun t => - g t) (seq 0 T)) with (tab T (fun t => - g t)) in Ed. rewrite (tab_nth_len T s 0 Hl), vminus_tab in Ed.
  rewrite (tab_ext T _ (fun t => - G j t - nth t s 0)) in Ed by (intros t Ht; rewrite Eg; auto).
  change (map (fun t => - g' t) (seq 0 T)) with (tab T (fun t => - g' t)) in Ed'. rewrite (tab_nth_len T s' 0 Hl'), vminus_tab in Ed'.
  rewrite (tab_ext T _ (fun t => - G' j t - nth t s' 0)) in Ed' by (intros t Ht; rewrite Eg'; auto).
  change (map (fun t => W j t - V j t) (seq 0 T)) with (tab T (fun t => W j t - V j t)). set (N := norm2 (tab T (fun t => W j t - V j t))) in *.
  assert (HN : 0 <= N) by apply norm2_pos.
  assert (B1 : - Sum T (fun t => (- G j t - nth t s 0) * (W j t - V j t)) <= e * N).
  { assert (CS := cauchy_schwarz (vscale (-1) (tab T (fun t => - G j t - nth t s 0))) (tab T (fun t => W j t - V j t))).
    rewrite dotp_scale_l, norm2_scale, dotp_tab, Ed in CS. replace (Rabs (-1)) with 1 in CS by (rewrite Rabs_left; lra). fold N in CS.
    assert (d * N <= e * N) by (apply Rmult_le_compat_r; auto). lra. }
  assert (B2 : Sum T (fun t => (- G' j t - nth t s' 0) * (W j t - V j t)) <= e' * N).
  { assert (CS := cauchy_schwarz (tab T (fun t => - G' j t - nth t s' 0)) (tab T (fun t => W j t - V j t))).
    rewrite dotp_tab, Ed' in CS. fold N in CS. assert (d' * N <= e' * N) by (apply Rmult_le_compat_r; auto). lra. }
  assert (E : Sum T (fun t => (G j t - G' j t) * (W j t - V j t)) = - Sum T (fun t => (- G j t - nth t s 0) * (W j t - V j t)) + Sum T (fun t => (- G' j t - nth t s' 0) * (W j t - V j t))
     + Sum T (fun t => nth t s 0 * (V j t - W j t)) + Sum T (fun t => nth t s' 0 * (W j t - V j t))).
  { rewrite <- Sum_opp, <- !Sum_plus. apply Sum_ext. intros. ring. }
  assert (TR : Rabs (norm2 (tab T (V j)) - norm2 (tab T (W j))) <= N).
  { assert (P1 := norm2_triang3 (tab T (W j)) (tab T (V j)) (tab T (fun _ => 0)) ltac:(rewrite !tab_length; auto) ltac:(rewrite !tab_length; auto)).
    assert (P2 := norm2_triang3 (tab T (V j)) (tab T (W j)) (tab T (fun _ => 0)) ltac:(rewrite !tab_length; auto) ltac:(rewrite !tab_length; auto)).
    rewrite (norm2_minus_sym (tab T (V j)) (tab T (W j))) in P2 by (rewrite !tab_length; auto). rewrite !vminus_tab in P1, P2.
    rewrite (tab_ext T (fun t => W j t - 0) (W j)), (tab_ext T (fun t => V j t - 0) (V j)) in P1, P2 by (intros; ring). fold N in P1, P2. apply Rabs_le. lra. }
  assert (K : (a - a') * (norm2 (tab T (V j)) - norm2 (tab T (W j))) <= Rabs (a - a') * N).
  { apply Rle_trans with (1 := Rle_abs _). rewrite Rabs_mult. apply Rmult_le_compat_l; [apply Rabs_pos|auto]. }
  unfold abs_pen in *. rewrite !(Rabs_pos_eq (norm2 _)) in Q1, Q2 by apply norm2_pos. lra.
Qed.
End Two.
(** *** changed samples *)
Section Samples.
Variables (n p T : nat) (Hn : (1 <= n)%nat) (C : nat -> bool) (X X' Y Y' : rmat) (W V : rmat).
Hypothesis HC : same_but_mt n p T C X Y X' Y'.
Let D : rmat := fun j t => W j t - V j t.
Let res (Z U : rmat) : rmat := fun i t => lin_mt p Z V i t - U i t.
Lemma grad_change_mt : Sum p (fun j => Sum T (fun t => (gq n X Y (lin_mt p X V) j t - gq n X' Y' (lin_mt p X' V) j t) * D j t)) =
  sum_changed n C (fun i => Sum T (fun t => res X Y i t * lin_mt p X D i t - res X' Y' i t * lin_mt p X' D i t)) / INR n.
Proof.
  pose proof (INR_npos n Hn) as HN. rewrite Sum_swap.
  assert (E : sum_changed n C (fun i => Sum T (fun t => res X Y i t * lin_mt p X D i t - res X' Y' i t * lin_mt p X' D i t)) = Sum T (fun t => sum_changed n C (fun i => res X Y i t * lin_mt p X D i t - res X' Y' i t * lin_mt p X' D i t))).
  { unfold sum_changed. rewrite Sum_swap. apply Sum_ext. intros i _. destruct (C i); auto. rewrite Sum_zero; auto. }
  rewrite E, <- Sum_div. apply Sum_ext. intros t Ht.
  assert (HC' : same_but n p C X (fun i => Y i t) X' (fun i => Y' i t)) by (intros i Hi Ei; destruct (HC i Hi Ei) as [E1 E2]; split; auto).
  exact (grad_change Squared n p Hn C X X' (fun i => Y i t) (fun i => Y' i t) (fun j => W j t) (fun j => V j t) HC').
Qed.
Lemma row_CS (f g : nat -> R) : Sum T (fun t => f t * g t) <= norm2 (map f (seq 0 T)) * norm2 (map g (seq 0 T)).
Proof. change (Sum T (fun t => f t * g t) <= norm2 (tab T f) * norm2 (tab T g)). rewrite <- dotp_tab. apply cauchy_schwarz. Qed.
Lemma changed_le_mt : - sum_changed n C (fun i => Sum T (fun t => res X Y i t * lin_mt p X D i t - res X' Y' i t * lin_mt p X' D i t)) <=
  sum_changed n C (fun i => norm2 (map (res X Y i) (seq 0 T)) * norm2 (map (lin_mt p X D i) (seq 0 T)) + norm2 (map (res X' Y' i) (seq 0 T)) * norm2 (map (lin_mt p X' D i) (seq 0 T))).
Proof.
  unfold sum_changed. rewrite <- Sum_opp. apply Sum_le. intros i _. destruct (C i); [|lra].
  pose proof (row_CS (fun t => - res X Y i t) (lin_mt p X D i)) as A. pose proof (row_CS (res X' Y' i) (lin_mt p X' D i)) as B.
  rewrite (Sum_ext T _ (fun t => - (res X Y i t * lin_mt p X D i t))), Sum_opp in A by (intros; ring).
  change (map (fun t => - res X Y i t) (seq 0 T)) with (tab T (fun t => - res X Y i t)) in A.
  replace (norm2 (tab T (fun t => - res X Y i t))) with (norm2 (map (res X Y i) (seq 0 T))) in A; [rewrite Sum_minus; lra|].
  change (map (res X Y i) (seq 0 T)) with (tab T (res X Y i)). symmetry. replace (tab T (fun t => - res X Y i t)) with (vscale (-1) (tab T (res X Y i))).
  - rewrite norm2_scale. replace (Rabs (-1)) with 1 by (rewrite Rabs_left; lra). ring.
  - unfold vscale, tab. rewrite map_map. apply map_ext. intros. ring.
Qed.
End Samples.
Lemma inner_msp n p T X Y W V : (1 <= n)%nat -> Sum p (fun j => Sum T (fun t => (gq n X Y (lin_mt p X W) j t - gq n X Y (lin_mt p X V) j t) * (W j t - V j t))) = msp_mt n p T X (fun j t => W j t - V j t).
Proof.
  intros Hn. rewrite quad_inner_mt by auto. unfold msp_mt.
  rewrite (Sum_ext n (fun i => Sum T (fun t => (Y i t - Y i t) * (lin_mt p X W i t - lin_mt p X V i t))) (fun _ => 0)) by (intros; apply Sum_zero; intros; ring).
  rewrite (Sum_zero n (fun _ => 0)) by auto. unfold Rdiv at 2. rewrite Rmult_0_l, Rminus_0_r. f_equal. apply Sum_ext. intros i _. apply Sum_ext. intros t _. rewrite lin_mt_minus. reflexivity.
Qed.
(** *** fits *)
Section Fits.
Context (srt srt' : list xr -> list nat) (VS : valid_sort xops srt) (VS' : valid_sort xops srt') (n p T : nat) (Hn : (1 <= n)%nat).
Variables (s s' : solver xr) (fit fit' : nat -> res (result (mat xr) (estimator_error xr))) (t t' : R).
Hypotheses (HA : accepted fit) (HA' : accepted fit') (Hs : patient p T s t) (Hs' : patient p T s' t').
Lemma both_mt X X' Y Y' a a' : multi_fit srt n p T X Y (MtLassoPen a) s fit -> multi_fit srt' n p T X' Y' (MtLassoPen a') s' fit' ->
  exists N W V, (forall m, (N <= m)%nat -> fit m = Ret (Ok (xm p T W)) /\ fit' m = Ret (Ok (xm p T V))) /\
    stationary_mt t (quad_loss_mt n T Y) p T X (penT (MtLassoPen a)) W /\ stationary_mt t' (quad_loss_mt n T Y') p T X' (penT (MtLassoPen a')) V /\ 0 < a /\ 0 < a'.
Proof.
  intros HF HF'. destruct Hs as (Et & Ht & A1 & A2 & A3 & A4). destruct Hs' as (Et' & Ht' & B1 & B2 & B3 & B4).
  destruct (c27_multi srt VS n p Hn T X Y a s fit HF t HA Et Ht A1 A2 A3 A4) as (N & W & HW & Hall).
  destruct (c27_multi srt' VS' n p Hn T X' Y' a' s' fit' HF' t' HA' Et' Ht' B1 B2 B3 B4) as (N' & V & HV & Hall').
  exists (Nat.max N N'), W, V. split; [intros m Hm; split; [apply Hall|apply Hall']; lia|]. split; auto. split; auto. split.
  - exact (proj1 (multi_run srt VS n p Hn T X Y _ s fit HF)).
  - exact (proj1 (multi_run srt' VS' n p Hn T X' Y' _ s' fit' HF')).
Qed.
Lemma c100_multi X Y a a' : multi_fit srt n p T X Y (MtLassoPen a) s fit -> multi_fit srt' n p T X Y (MtLassoPen a') s' fit' ->
  let o := Sum n (fun i => Sum T (fun u => Y i u ^ 2)) / (2 * INR n) in
  exists N W V, (forall m, (N <= m)%nat -> fit m = Ret (Ok (xm p T W)) /\ fit' m = Ret (Ok (xm p T V))) /\
    Sum n (fun i => Sum T (fun u => (lin_mt p X W i u - lin_mt p X V i u) ^ 2)) / INR n <= (t + t' + Rabs (a - a')) * (o / a + o / a').
Proof.
  intros HF HF' o. destruct (both_mt X X Y Y a a' HF HF') as (N & W & V & Hall & H1 & H2 & Ha & Ha'). exists N, W, V. split; auto.
  destruct (Hall N (le_n N)) as [F1 F2].
  destruct (fit_size_mt srt VS n p T X Y _ s fit a N W Hn HF eq_refl Ha F1) as [_ S1]. destruct (fit_size_mt srt' VS' n p T X Y _ s' fit' a' N V Hn HF' eq_refl Ha' F2) as [_ S2].
  pose proof (two_models_mt n p T Hn X X Y Y a a' t t' W V Ha Ha' H1 H2) as Q. rewrite inner_msp in Q by auto. unfold msp_mt in Q.
  rewrite (Sum_ext n _ (fun i => Sum T (fun u => (lin_mt p X W i u - lin_mt p X V i u) ^ 2))) in Q by (intros; apply Sum_ext; intros; rewrite lin_mt_minus; reflexivity).
  apply Rle_trans with (1 := Q). apply Rmult_le_compat_l; [|apply gap_bound_mt; auto]. pose proof (Rabs_pos (a - a')). destruct Hs as (_ & Ht & _). destruct Hs' as (_ & Ht' & _). lra.
Qed.
Lemma c101_multi C X X' Y Y' a : multi_fit srt n p T X Y (MtLassoPen a) s fit -> multi_fit srt' n p T X' Y' (MtLassoPen a) s' fit' -> same_but_mt n p T C X Y X' Y' ->
  exists N W V, (forall m, (N <= m)%nat -> fit m = Ret (Ok (xm p T W)) /\ fit' m = Ret (Ok (xm p T V))) /\
    let D : rmat := fun j u => W j u - V j u in let size (M : rmat) i := norm2 (map (M i) (seq 0 T)) in
    msp_mt n p T X D <= (t + t') * Sum p (size D) +
      sum_changed n C (fun i => size (fun i u => lin_mt p X V i u - Y i u) i * size (lin_mt p X D) i + size (fun i u => lin_mt p X' V i u - Y' i u) i * size (lin_mt p X' D) i) / INR n.
Proof.
  intros HF HF' HC. destruct (both_mt X X' Y Y' a a HF HF') as (N & W & V & Hall & H1 & H2 & Ha & _). exists N, W, V. split; auto. intros D size.
  pose proof (two_models_mt n p T Hn X X' Y Y' a a t t' W V Ha Ha H1 H2) as Q. rewrite Rminus_diag_eq, Rabs_R0, Rplus_0_r in Q by auto. change (gap_mt p T W V) with (Sum p (size D)) in Q.
  pose proof (inner_msp n p T X Y W V Hn) as E. pose proof (grad_change_mt n p T Hn C X X' Y Y' W V HC) as G. pose proof (changed_le_mt n p T C X X' Y Y' W V) as L. cbv zeta in G, L. pose proof (INR_npos n Hn) as HN.
  fold D in E, G, L. set (A := sum_changed n C _) in G, L at 1. set (B := sum_changed n C _) in L.
  change (msp_mt n p T X D <= (t + t') * Sum p (size D) + B / INR n).
  assert (K : - (A / INR n) <= B / INR n) by (unfold Rdiv; rewrite Ropp_mult_distr_l; apply Rmult_le_compat_r; auto; left; apply Rinv_0_lt_compat; auto).
  rewrite (Sum_ext p _ (fun j => Sum T (fun u => (gq n X Y (lin_mt p X W) j u - gq n X Y (lin_mt p X V) j u) * (W j u - V j u)) + Sum T (fun u => (gq n X Y (lin_mt p X V) j u - gq n X' Y' (lin_mt p X' V) j u) * D j u))) in Q by (intros; rewrite <- Sum_plus; apply Sum_ext; intros; unfold D; ring).
  rewrite Sum_plus, G, E in Q. lra.
Qed.
End Fits.
