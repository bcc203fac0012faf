(** Squared losses see the data through second moments only. *)
From Coq Require Import List ZArith Bool Arith Reals Lra Lia FunctionalExtensionality.
From Verif Require Import Ops Arr MUtils MCd MEstimators XR SpecPen VecR PBase RSum SpecLin SpecData PProx PSubdiff PDatafit PCalc PDataProps SpecSolve PLin PData PLaws SpecOpt PRef PRefCD PRefPen PSim PFit PDescent PFitOpt PScale PScaleFit PTwin SpecMoments.
Import ListNotations.
Open Scope R_scope.

(** *** loss and gradient *)
Lemma fit_product n p X W j t : Sum n (fun i => X i j * lin_mt p X W i t) / INR n = Sum p (fun k => moment n X j k * W k t).
Proof.
  rewrite (Sum_ext p _ (fun k => Sum n (fun i => X i j * X i k * W k t) / INR n)).
  - rewrite Sum_div. f_equal. rewrite <- Sum_swap. apply Sum_ext. intros i _. unfold lin_mt. rewrite <- Sum_scal. apply Sum_ext. intros. ring.
  - intros k _. unfold moment. rewrite Sum_scal_r. unfold Rdiv. ring.
Qed.
Lemma grad_moments n p T X Y W Z j t : (t < T)%nat -> (forall i t, (i < n)%nat -> (t < T)%nat -> Z i t = lin_mt p X W i t) ->
  gq n X Y Z j t = Sum p (fun k => moment n X j k * W k t) - cross n X (fun i => Y i t) j.
Proof.
  intros Ht HZ. rewrite <- fit_product. unfold gq, cross. rewrite (Sum_ext n (fun i => X i j * Z i t) (fun i => X i j * lin_mt p X W i t)) by (intros; rewrite HZ by auto; auto). unfold Rdiv. ring.
Qed.
Lemma loss_moments n p T X Y W Z : (1 <= n)%nat -> (forall i t, (i < n)%nat -> (t < T)%nat -> Z i t = lin_mt p X W i t) ->
  quad_loss_mt n T Y Z = Sum n (fun i => Sum T (fun t => Y i t ^ 2)) / (2 * INR n) +
    Sum T (fun t => Sum p (fun j => W j t * (Sum p (fun k => moment n X j k * W k t) / 2 - cross n X (fun i => Y i t) j))).
Proof.
  intros Hn HZ. pose proof (INR_pos n Hn) as HN. unfold quad_loss_mt.
  assert (E : forall t, Sum p (fun j => W j t * (Sum p (fun k => moment n X j k * W k t) / 2 - cross n X (fun i => Y i t) j)) = Sum n (fun i => lin_mt p X W i t ^ 2 - 2 * (lin_mt p X W i t * Y i t)) / (2 * INR n)).
  { intros t. rewrite (Sum_ext p _ (fun j => Sum n (fun i => W j t * X i j * lin_mt p X W i t - 2 * (W j t * X i j * Y i t)) / (2 * INR n))).
    - rewrite Sum_div. f_equal. rewrite <- Sum_swap. apply Sum_ext. intros i _. unfold lin_mt at 2 3. rewrite Sum_minus, Sum_scal, !Sum_scal_r. rewrite (Sum_ext p (fun j => W j t * X i j) (fun j => X i j * W j t)) by (intros; ring). unfold lin_mt at 1. unfold lin_mt. ring.
    - intros j _. rewrite <- fit_product. unfold cross. rewrite Sum_minus, Sum_scal.
      rewrite (Sum_ext n (fun i => W j t * X i j * lin_mt p X W i t) (fun i => W j t * (X i j * lin_mt p X W i t))) by (intros; ring).
      rewrite (Sum_ext n (fun i => W j t * X i j * Y i t) (fun i => W j t * (X i j * Y i t))) by (intros; ring). rewrite !Sum_scal. field. lra. }
  rewrite (Sum_ext T _ _ (fun t _ => E t)), Sum_div, <- Rdiv_plus_distr. f_equal.
  rewrite <- (Sum_swap n T (fun i t => lin_mt p X W i t ^ 2 - 2 * (lin_mt p X W i t * Y i t))), <- Sum_plus. apply Sum_ext. intros i Hi.
  rewrite <- Sum_plus. apply Sum_ext. intros t Ht. rewrite HZ by auto. ring.
Qed.
Lemma Lq_moment n X j : Lq n X j = moment n X j j.
Proof. reflexivity. Qed.

(** *** penalties that differ by a ridge *)
Lemma ridge_params b k k' : pen1_range k -> pen1_range k' -> less_ridge b k k' -> convex1 k -> convex1 k' ->
  exists c d d', (forall u, pen1 k u = c * Rabs u + d / 2 * u ^ 2) /\ (forall u, pen1 k' u = c * Rabs u + d' / 2 * u ^ 2) /\ d = d' + b /\ 0 <= c /\ 0 <= d /\ 0 <= d' /\
  (forall v s, 0 < s -> prox1 k v s = rsoft v (c * s) / (1 + s * d)) /\ (forall v s, 0 < s -> prox1 k' v s = rsoft v (c * s) / (1 + s * d')) /\
  (forall w g, dist1 k w g = if Reqb w 0 then Rmax 0 (Rabs g - c) else Rabs (- g - rsign w * c - d * w)) /\
  (forall w g, dist1 k' w g = if Reqb w 0 then Rmax 0 (Rabs g - c) else Rabs (- g - rsign w * c - d' * w)).
Proof.
  intros Hr Hr' HE HC HC'.
  assert (N : forall q, pen1_range q -> convex1 q -> exists c d, 0 <= c /\ 0 <= d /\ (forall u, pen1 q u = c * Rabs u + d / 2 * u ^ 2) /\ (forall v s, 0 < s -> prox1 q v s = rsoft v (c * s) / (1 + s * d)) /\
     (forall w g, dist1 q w g = if Reqb w 0 then Rmax 0 (Rabs g - c) else Rabs (- g - rsign w * c - d * w))).
  { intros q Hq Cq. destruct q as [a|a r|a g]; [| |contradiction].
    - exists a, 0. cbn in Hq. split; [auto|]. split; [lra|]. split; [intros; cbn; unfold abs_pen; lra|]. split.
      + intros v s Hs. cbn. field.
      + intros w g. cbn. unfold r_l1_score. destruct (Reqb w 0); auto. f_equal. ring.
    - cbn in Hq. exists (a * r), (a * (1 - r)). split; [nra|]. split; [nra|]. split; [intros; cbn; unfold enet_pen; field|]. split.
      + intros v s Hs. cbn. unfold enet_prox. f_equal; [f_equal; ring|ring].
      + intros w g. cbn. unfold r_l1l2_score. destruct (Reqb w 0); auto. f_equal. ring. }
  destruct (N k Hr HC) as (c & d & A1 & A2 & A3 & A4 & A5). destruct (N k' Hr' HC') as (c' & d' & B1 & B2 & B3 & B4 & B5).
  assert (c = c' /\ d = d' + b) as [-> Ed].
  { pose proof (HE 1) as E1. pose proof (HE 2) as E2. rewrite A3, B3 in E1, E2. rewrite Rabs_R1 in E1. rewrite (Rabs_right 2) in E2 by lra. split; lra. }
  exists c', d, d'. repeat split; auto.
Qed.
Lemma rsoft_0 t : 0 <= t -> rsoft 0 t = 0.
Proof. intros H. unfold rsoft. rewrite (proj2 (Rltb_false t 0)) by lra. rewrite (proj2 (Rltb_false 0 (- t))) by lra. auto. Qed.
(** the exact minimiser in one coordinate, however the square is split between loss and penalty *)
Lemma split_prox c d' b L w g : 0 <= c -> 0 <= d' -> 0 <= b -> 0 < L ->
  rsoft (w - (g + b * w) / (L + b)) (c * (1 / (L + b))) / (1 + 1 / (L + b) * d') = rsoft (w - g / L) (c * (1 / L)) / (1 + 1 / L * (d' + b)).
Proof.
  intros Hc Hd Hb HL. assert (H1 : 0 < L / (L + b)) by (apply Rdiv_lt_0_compat; lra).
  replace (w - (g + b * w) / (L + b)) with (L / (L + b) * (w - g / L)) by (field; lra). replace (c * (1 / (L + b))) with (L / (L + b) * (c * (1 / L))) by (field; lra).
  rewrite rsoft_sc by auto. field. repeat split; lra.
Qed.

Section One.
Variables (srt : list xr -> list nat) (VS : valid_sort xops srt) (n n' p : nat) (Hn : (1 <= n)%nat) (Hn' : (1 <= n')%nat) (X X' : rmat) (y y' : nat -> R) (b : R).
Hypotheses (Hb : 0 <= b) (HM : moments_shifted b p n X y n' X' y').
Lemma shift_grad W W' Z Z' j : (j < p)%nat -> (forall k, (k < p)%nat -> W' k 0%nat = W k 0%nat) ->
  (forall i t, (i < n)%nat -> (t < 1)%nat -> Z i t = lin_mt p X W i t) -> (forall i t, (i < n')%nat -> (t < 1)%nat -> Z' i t = lin_mt p X' W' i t) ->
  gq n' X' (fun i _ => y' i) Z' j 0 = gq n X (fun i _ => y i) Z j 0 + b * W j 0%nat.
Proof.
  intros Hj HW HZ HZ'. rewrite (grad_moments n p 1 X _ W Z), (grad_moments n' p 1 X' _ W' Z') by (auto; lia). destruct (HM j Hj) as [HG HX]. change (cross n' X' (fun i => y' i) j = cross n X (fun i => y i) j) in HX. cbv beta. rewrite HX.
  rewrite (Sum_ext p (fun k => moment n' X' j k * W' k 0%nat) (fun k => moment n X j k * W k 0%nat + (if (j =? k)%nat then b else 0) * W k 0%nat)) by (intros k Hk; rewrite HG, HW by auto; ring).
  rewrite Sum_plus, (Sum_single p (fun k => (if (j =? k)%nat then b else 0) * W k 0%nat) j); [rewrite Nat.eqb_refl; ring|auto|].
  intros i _ N. rewrite (proj2 (Nat.eqb_neq j i)) by auto. ring.
Qed.
Lemma shift_loss W W' Z Z' : (forall k, (k < p)%nat -> W' k 0%nat = W k 0%nat) ->
  (forall i t, (i < n)%nat -> (t < 1)%nat -> Z i t = lin_mt p X W i t) -> (forall i t, (i < n')%nat -> (t < 1)%nat -> Z' i t = lin_mt p X' W' i t) ->
  quad_loss_mt n' 1 (fun i _ => y' i) Z' = quad_loss_mt n 1 (fun i _ => y i) Z + Sum p (fun j => b / 2 * W j 0%nat ^ 2)
    + (Sum n' (fun i => Sum 1 (fun _ => y' i ^ 2)) / (2 * INR n') - Sum n (fun i => Sum 1 (fun _ => y i ^ 2)) / (2 * INR n)).
Proof.
  intros HW HZ HZ'. rewrite (loss_moments n p 1 X _ W Z), (loss_moments n' p 1 X' _ W' Z') by auto. rewrite !(Sum_S 0), !Sum_0, !Rplus_0_l.
  match goal with |- _ + ?s' = _ + ?s + ?r + _ => assert (E : s' = s + r) end; [|rewrite E; ring].
  rewrite <- Sum_plus. apply Sum_ext. intros j Hj. destruct (HM j Hj) as [HG HX]. change (cross n' X' (fun i => y' i) j = cross n X (fun i => y i) j) in HX. cbv beta. rewrite HX, HW by auto.
  rewrite (Sum_ext p (fun k => moment n' X' j k * W' k 0%nat) (fun k => moment n X j k * W k 0%nat + (if (j =? k)%nat then b else 0) * W k 0%nat)) by (intros k Hk; rewrite HG, HW by auto; ring).
  rewrite Sum_plus, (Sum_single p (fun k => (if (j =? k)%nat then b else 0) * W k 0%nat) j); [rewrite Nat.eqb_refl; field|auto|].
  intros i _ N. rewrite (proj2 (Nat.eqb_neq j i)) by auto. ring.
Qed.
Lemma shift_L j : (j < p)%nat -> Lq n' X' j = Lq n X j + b.
Proof. intros Hj. rewrite !Lq_moment. destruct (HM j Hj) as [HG _]. rewrite HG, Nat.eqb_refl by auto. auto. Qed.

Lemma twins_ridge k k' : pen1_range k -> pen1_range k' -> less_ridge b k k' -> convex1 k -> convex1 k' -> twins (prob1 Squared k n p X y) (prob1 Squared k' n' p X' y').
Proof.
  intros Hr Hr' HE HC HC'. destruct (ridge_params b k k' Hr Hr' HE HC HC') as (c & d & d' & E1 & E2 & -> & Hc & Hd & Hd' & P1 & P2 & S1 & S2). constructor.
  - intros [W Z] [W' Z'] j ((HW & HF & HF') & HD) Hj. unfold eqW, fitted, dead_zero in *. cbn [prob1 quadP single_problem pp pT pn pX fst snd] in *.
    assert (HW0 : forall k, (k < p)%nat -> W' k 0%nat = W k 0%nat) by (intros; apply HW; auto; lia).
    assert (EG := shift_grad W W' Z Z' j Hj HW0 HF HF'). assert (EL := shift_L j Hj). assert (L0 := Lq_nonneg n X j Hn).
    intros i t Hi Ht. assert (t = 0)%nat as -> by lia. destruct (Nat.eq_dec i j) as [->|N]; [|rewrite !step_other by auto; auto].
    unfold rstep. cbn [prob1 quadP single_problem pL pX]. rewrite EL.
    destruct (Reqb (Lq n X j) 0) eqn:Q; rb.
    + rewrite Q, Rplus_0_l. destruct (Reqb b 0) eqn:Q'; rb; cbn [fst]; [auto|]. rewrite Nat.eqb_refl. unfold rupd. cbn [prob1 quadP single_problem pL pX pprox pg pT]. rewrite EL, Q, Rplus_0_l.
      cbn [tab map seq nth]. rewrite EG, HW0, (HD j 0%nat Hj ltac:(lia) Q) by auto. rewrite P2 by (apply Rdiv_lt_0_compat; lra).
      replace (gq n X (fun i _ => y i) Z j 0) with 0; [|symmetry; unfold gq; assert (X0 : forall i, (i < n)%nat -> X i j = 0)].
      * replace (0 - (0 + b * 0) / b) with 0 by (field; auto). rewrite rsoft_0; [unfold Rdiv; ring|]. apply Rmult_le_pos; auto. apply Rlt_le, Rdiv_lt_0_compat; lra.
      * intros i Hi'. destruct (Req_dec (X i j) 0); auto. exfalso. assert (0 < Lq n X j); [|lra]. unfold Lq. apply Rdiv_lt_0_compat; [|apply INR_pos; auto].
        apply Sum_pos with i; auto; [intros; nra|nra].
      * rewrite !Sum_zero by (intros; rewrite X0 by auto; ring). unfold Rdiv; ring.
    + destruct (Reqb (Lq n X j + b) 0) eqn:Q'; rb; [lra|]. cbn [fst]. rewrite Nat.eqb_refl. unfold rupd. cbn [prob1 quadP single_problem pL pX pprox pg pT].
      rewrite EL. cbn [tab map seq nth]. rewrite EG, HW0 by auto. rewrite P1, P2 by (apply Rdiv_lt_0_compat; lra). apply split_prox; auto. lra.
  - intros [W Z] [W' Z'] j (HW & HF & HF') Hj. unfold eqW, fitted in *. cbn [prob1 quadP single_problem pp pT pn pX fst snd] in *.
    assert (HW0 : forall k, (k < p)%nat -> W' k 0%nat = W k 0%nat) by (intros; apply HW; auto; lia).
    unfold rdist, row. cbn [prob1 quadP single_problem pp pT pdist pg tab map seq nth]. rewrite S1, S2, HW0, (shift_grad W W' Z Z' j) by auto.
    destruct (Reqb (W j 0%nat) 0) eqn:Q; rb; [rewrite Q; do 3 f_equal; ring|]. f_equal. ring.
  - exists (Sum n' (fun i => Sum 1 (fun _ => y' i ^ 2)) / (2 * INR n') - Sum n (fun i => Sum 1 (fun _ => y i ^ 2)) / (2 * INR n)).
    intros [W Z] [W' Z'] (HW & HF & HF'). unfold eqW, fitted in *. cbn [prob1 quadP single_problem pp pT pn pX fst snd] in *.
    assert (HW0 : forall k, (k < p)%nat -> W' k 0%nat = W k 0%nat) by (intros; apply HW; auto; lia).
    unfold robj, row. cbn [prob1 quadP single_problem pp pT pf ppv tab map seq nth]. rewrite (shift_loss W W' Z Z') by auto.
    rewrite (Sum_ext p (fun j => pen1 k (W j 0%nat)) (fun j => pen1 k' (W j 0%nat) + b / 2 * W j 0%nat ^ 2)) by (intros; apply HE). rewrite Sum_plus.
    rewrite (Sum_ext p (fun j => pen1 k' (W' j 0%nat)) (fun j => pen1 k' (W j 0%nat))) by (intros; rewrite HW0; auto). ring.
Qed.
End One.

(** *** the same moments, any penalty *)
Section Same.
Variables (n n' p T : nat) (Hn : (1 <= n)%nat) (Hn' : (1 <= n')%nat) (X X' Y Y' : rmat) (HM : same_moments_mt p T n X Y n' X' Y').
Lemma same_grad W W' Z Z' j t : (j < p)%nat -> (t < T)%nat -> (forall k t, (k < p)%nat -> (t < T)%nat -> W' k t = W k t) ->
  (forall i t, (i < n)%nat -> (t < T)%nat -> Z i t = lin_mt p X W i t) -> (forall i t, (i < n')%nat -> (t < T)%nat -> Z' i t = lin_mt p X' W' i t) ->
  gq n' X' Y' Z' j t = gq n X Y Z j t.
Proof.
  intros Hj Ht HW HZ HZ'. rewrite (grad_moments n p T X _ W Z), (grad_moments n' p T X' _ W' Z') by auto. destruct (HM t Ht j Hj) as [HG HX]. rewrite HX. f_equal.
  apply Sum_ext. intros k Hk. rewrite HG, HW by auto. auto.
Qed.
Lemma twins_same prox pv dist : twins (mtP n p T X Y prox pv dist) (mtP n' p T X' Y' prox pv dist).
Proof.
  constructor.
  - intros [W Z] [W' Z'] j ((HW & HF & HF') & _) Hj. unfold eqW, fitted in *. cbn [mtP pp pT pn pX fst snd] in *.
    assert (EG := fun t Ht => same_grad W W' Z Z' j t Hj Ht HW HF HF').
    intros i t Hi Ht. destruct (Nat.eq_dec i j) as [->|N]; [|rewrite !step_other by auto; auto].
    assert (EL : Lq n' X' j = Lq n X j) by (rewrite !Lq_moment; apply (HM t Ht); auto).
    unfold rstep. cbn [mtP pL pX]. rewrite EL. destruct (Reqb (Lq n X j) 0); cbn [fst]; [auto|]. rewrite Nat.eqb_refl. unfold rupd. cbn [mtP pL pX pprox pg pT]. rewrite EL. do 2 f_equal.
    apply tab_ext. intros t' Ht'. rewrite EG, HW by auto. auto.
  - intros [W Z] [W' Z'] j (HW & HF & HF') Hj. unfold eqW, fitted in *. cbn [mtP pp pT pn pX fst snd] in *.
    unfold rdist, row. cbn [mtP pp pT pdist pg]. f_equal; apply tab_ext; intros t Ht; [apply HW; auto|]. apply (same_grad W W'); auto.
  - exists (Sum n' (fun i => Sum T (fun t => Y' i t ^ 2)) / (2 * INR n') - Sum n (fun i => Sum T (fun t => Y i t ^ 2)) / (2 * INR n)).
    intros [W Z] [W' Z'] (HW & HF & HF'). unfold eqW, fitted in *. cbn [mtP pp pT pn pX fst snd] in *.
    unfold robj, row. cbn [mtP pp pT pf ppv]. rewrite (loss_moments n p T X Y W Z), (loss_moments n' p T X' Y' W' Z') by auto.
    rewrite (Sum_ext p (fun j => pv (tab T (W' j))) (fun j => pv (tab T (W j)))) by (intros; f_equal; apply tab_ext; intros; apply HW; auto).
    match goal with |- _ + ?s' + ?q = _ + ?s + ?q + _ => assert (E : s' = s) end; [|rewrite E; ring].
    apply Sum_ext. intros t Ht. apply Sum_ext. intros j Hj. destruct (HM t Ht j Hj) as [HG HX]. rewrite HX, HW by auto. f_equal. f_equal. f_equal.
    apply Sum_ext. intros k Hk. rewrite HG, HW by auto. auto.
Qed.
End Same.

(** *** fits *)
Section Fits.
Variables (srt : list xr -> list nat) (VS : valid_sort xops srt) (n n' p : nat) (Hn : (1 <= n)%nat) (Hn' : (1 <= n')%nat).
Lemma twin_fit X X' y y' k k' s fit fit' : single_fit srt n p X y Squared k s fit -> single_fit srt n' p X' y' Squared k' s fit' -> accepted fit -> accepted fit' ->
  (pen1_range k -> pen1_range k' -> twins (prob1 Squared k n p X y) (prob1 Squared k' n' p X' y')) -> forall m, fit' m = fit m.
Proof.
  intros HF HF' Ha Ha' HT m.
  destruct (single_run srt VS n p Hn X y Squared k s fit HF) as [(e & He)|[Hrg Hgo]]; [exfalso; apply (Ha 0%nat e); auto|].
  destruct (single_run srt VS n' p Hn' X' y' Squared k' s fit' HF') as [(e & He)|[Hrg' Hgo']]; [exfalso; apply (Ha' 0%nat e); auto|].
  rewrite Hgo, Hgo'. unfold go1, run1.
  assert (R := t_solve (prob1 Squared k n p X y) (prob1 Squared k' n' p X' y') srt VS eq_refl eq_refl (HT Hrg Hrg') (s_tolerance s) (s_K s) (s_use_acceleration s) (s_ws_start_size s) (s_max_epochs s) m).
  destruct (rsolve (prob1 Squared k n p X y) _ _ _ _ _ _ _) as [[W Z]|e], (rsolve (prob1 Squared k' n' p X' y') _ _ _ _ _ _ _) as [[W' Z']|e']; cbn [rel_res] in R; try contradiction.
  - cbn [bind ok fst]. unfold ok. cbn [bind]. do 2 f_equal. unfold vW. apply xv_ext. intros j Hj. apply R; cbn; auto.
  - subst e'. reflexivity.
Qed.
Lemma moments_fit X X' y y' k s fit fit' : single_fit srt n p X y Squared k s fit -> single_fit srt n' p X' y' Squared k s fit' -> accepted fit -> accepted fit' ->
  same_moments p n X y n' X' y' -> forall m, fit' m = fit m.
Proof.
  intros HF HF' Ha Ha' HM. apply (twin_fit X X' y y' k k s fit fit' HF HF' Ha Ha'). intros _ _. cbn [prob1].
  apply (twins_same n n' p 1 Hn Hn' X X' (fun i _ => y i) (fun i _ => y' i)). intros t _. exact HM.
Qed.
Lemma ridge_moved_fit b X X' y y' k k' s fit fit' : single_fit srt n p X y Squared k s fit -> single_fit srt n' p X' y' Squared k' s fit' -> accepted fit -> accepted fit' ->
  0 <= b -> moments_shifted b p n X y n' X' y' -> less_ridge b k k' -> convex1 k -> convex1 k' -> forall m, fit' m = fit m.
Proof.
  intros HF HF' Ha Ha' Hb HM HR HC HC'. apply (twin_fit X X' y y' k k' s fit fit' HF HF' Ha Ha'). intros Hr Hr'. apply (twins_ridge n n' p Hn Hn' X X' y y' b Hb HM); auto.
Qed.
Lemma moments_fit_mt T X X' Y Y' k s fit fit' : multi_fit srt n p T X Y k s fit -> multi_fit srt n' p T X' Y' k s fit' -> accepted fit -> accepted fit' ->
  same_moments_mt p T n X Y n' X' Y' -> forall m, fit' m = fit m.
Proof.
  intros HF HF' Ha Ha' HM m.
  destruct (multi_run srt VS n p Hn T X Y k s fit HF) as [Hrg [(e & He)|Hgo]]; [exfalso; apply (Ha 0%nat e); auto|].
  destruct (multi_run srt VS n' p Hn' T X' Y' k s fit' HF') as [_ [(e & He)|Hgo']]; [exfalso; apply (Ha' 0%nat e); auto|].
  rewrite Hgo, Hgo'. unfold goT, runT.
  assert (R := t_solve (probT k n p T X Y) (probT k n' p T X' Y') srt VS eq_refl eq_refl (twins_same n n' p T Hn Hn' X X' Y Y' HM _ _ _) (s_tolerance s) (s_K s) (s_use_acceleration s) (s_ws_start_size s) (s_max_epochs s) m).
  destruct (rsolve (probT k n p T X Y) _ _ _ _ _ _ _) as [[W Z]|e], (rsolve (probT k n' p T X' Y') _ _ _ _ _ _ _) as [[W' Z']|e']; cbn [rel_res] in R; try contradiction.
  - cbn [bind ok fst]. unfold ok. cbn [bind]. do 2 f_equal. apply xm_ext. intros j t Hj Ht. apply R; auto.
  - subst e'. reflexivity.
Qed.
End Fits.

(** *** mixtures of samples *)
Lemma mix_product n n' Q f g : (1 <= n)%nat -> (1 <= n')%nat -> preserves_means n' n Q ->
  Sum n' (fun r => Sum n (fun i => Q r i * f i) * Sum n (fun i => Q r i * g i)) / INR n' = Sum n (fun i => f i * g i) / INR n.
Proof.
  intros Hn Hn' HQ. pose proof (INR_pos n Hn). pose proof (INR_pos n' Hn').
  transitivity (Sum n (fun i => Sum n (fun k => f i * g k * (Sum n' (fun r => Q r i * Q r k) / INR n')))).
  - rewrite (Sum_ext n' _ (fun r => Sum n (fun i => Sum n (fun k => f i * g k * (Q r i * Q r k))))).
    + rewrite Sum_swap, <- Sum_div. apply Sum_ext. intros i _. rewrite Sum_swap, <- Sum_div. apply Sum_ext. intros k _. rewrite Sum_scal. unfold Rdiv. ring.
    + intros r _. rewrite <- Sum_scal_r. apply Sum_ext. intros i _. rewrite <- Sum_scal. apply Sum_ext. intros k _. ring.
  - rewrite <- Sum_div. apply Sum_ext. intros i Hi. rewrite (Sum_single n _ i); auto.
    + rewrite HQ, Nat.eqb_refl by auto. field. lra.
    + intros k Hk N. rewrite HQ, (proj2 (Nat.eqb_neq i k)) by auto. ring.
Qed.
Lemma mixed_moments n n' p Q X y : (1 <= n)%nat -> (1 <= n')%nat -> preserves_means n' n Q -> same_moments p n X y n' (mix n Q X) (mix1 n Q y).
Proof. intros Hn Hn' HQ j Hj. split; [intros k Hk|]; apply mix_product; auto. Qed.

(** *** one further sample per feature *)
Lemma unit_change_sq n p : (1 <= n)%nat -> unit_change n p * unit_change n p = INR (n + p) / INR n.
Proof. intros Hn. unfold unit_change. apply sqrt_sqrt. apply Rlt_le, Rdiv_lt_0_compat; apply INR_pos; lia. Qed.
Lemma augmented_moments n p b X y : (1 <= n)%nat -> 0 <= b -> moments_shifted b p n X y (n + p) (augmented_design n p b X) (augmented_targets n p y).
Proof.
  intros Hn Hb j Hj. pose proof (INR_pos n Hn) as H1. pose proof (INR_pos (n + p) ltac:(lia)) as H2. pose proof (unit_change_sq n p Hn) as HU. split.
  - intros k Hk. unfold moment, augmented_design. rewrite Sum_add.
    rewrite (Sum_ext n _ (fun i => INR (n + p) / INR n * (X i j * X i k))) by (intros i Hi; rewrite (proj2 (Nat.ltb_lt i n)) by auto; rewrite <- HU; ring).
    rewrite (Sum_ext p _ (fun i => INR (n + p) / INR n * ((if (i =? j)%nat then sqrt (INR n * b) else 0) * (if (i =? k)%nat then sqrt (INR n * b) else 0)))).
    + rewrite !Sum_scal. rewrite (Sum_single p _ j); auto.
      * rewrite Nat.eqb_refl. destruct (Nat.eqb_spec j k) as [<-|N]; [|field; lra]. rewrite sqrt_sqrt by nra. field. lra.
      * intros i _ N. rewrite (proj2 (Nat.eqb_neq i j)) by auto. ring.
    + intros i Hi. rewrite (proj2 (Nat.ltb_ge (n + i) n)) by lia.
      assert (E : forall q, (n + i =? n + q)%nat = (i =? q)%nat) by (intros q; destruct (Nat.eqb_spec (n + i) (n + q)), (Nat.eqb_spec i q); auto; lia). rewrite !E, <- HU. ring.
  - unfold cross, augmented_design, augmented_targets. rewrite Sum_add.
    rewrite (Sum_ext n _ (fun i => INR (n + p) / INR n * (X i j * y i))) by (intros i Hi; rewrite (proj2 (Nat.ltb_lt i n)) by auto; rewrite <- HU; ring).
    rewrite (Sum_zero p) by (intros i Hi; rewrite (proj2 (Nat.ltb_ge (n + i) n)) by lia; ring). rewrite Sum_scal. field. lra.
Qed.
Lemma enet_less_ridge a r : less_ridge (a * (1 - r)) (EnetPen a r) (LassoPen (a * r)).
Proof. intros u. cbn. unfold enet_pen, abs_pen. field. Qed.
Lemma augmented_fit srt (VS : valid_sort xops srt) n p X y a r s fit fit' : (1 <= n)%nat ->
  single_fit srt n p X y Squared (EnetPen a r) s fit ->
  single_fit srt (n + p) p (augmented_design n p (a * (1 - r)) X) (augmented_targets n p y) Squared (LassoPen (a * r)) s fit' ->
  accepted fit -> accepted fit' -> forall m, fit' m = fit m.
Proof.
  intros Hn HF HF' Ha Ha'.
  assert (Hr : 0 <= a * (1 - r)).
  { destruct (single_run srt VS n p Hn _ _ _ _ _ _ HF) as [(e & He)|[H _]]; [exfalso; apply (Ha 0%nat e); auto|]. cbn in H. nra. }
  apply (ridge_moved_fit srt VS n (n + p) p Hn ltac:(lia) (a * (1 - r)) X _ y _ _ _ s fit fit' HF HF' Ha Ha' Hr); [apply augmented_moments; auto|apply enet_less_ridge|exact I|exact I].
Qed.
(** the objectives are the same functions *)
Lemma augmented_objective n p X y a r w : (1 <= n)%nat -> 0 <= a * (1 - r) ->
  objective (loss1 Squared (n + p) (augmented_targets n p y)) p (augmented_design n p (a * (1 - r)) X) (pen1 (LassoPen (a * r))) w = objective (loss1 Squared n y) p X (pen1 (EnetPen a r)) w.
Proof.
  intros Hn Hb. pose proof (INR_pos n Hn) as H1. pose proof (INR_pos (n + p) ltac:(lia)) as H2. pose proof (unit_change_sq n p Hn) as HU. unfold objective. cbn [loss1].
  rewrite (Sum_ext p (fun j => pen1 (EnetPen a r) (w j)) (fun j => pen1 (LassoPen (a * r)) (w j) + a * (1 - r) / 2 * w j ^ 2)) by (intros; apply enet_less_ridge).
  rewrite Sum_plus. match goal with |- ?x + ?q = ?z + (?q + ?u) => assert (E : x = z + u) end; [|rewrite E; ring].
  unfold quad_loss. rewrite Sum_add.
  rewrite (Sum_ext n _ (fun i => INR (n + p) / INR n * (y i - lin p X w i) ^ 2)).
  - rewrite (Sum_ext p _ (fun i => INR (n + p) / INR n * (INR n * (a * (1 - r)) * w i ^ 2))).
    + rewrite !Sum_scal. field. lra.
    + intros i Hi. unfold augmented_targets. rewrite (proj2 (Nat.ltb_ge (n + i) n)) by lia. rewrite <- HU.
      replace (lin p (augmented_design n p (a * (1 - r)) X) w (n + i)) with (unit_change n p * sqrt (INR n * (a * (1 - r))) * w i).
      * transitivity (unit_change n p * unit_change n p * (sqrt (INR n * (a * (1 - r))) * sqrt (INR n * (a * (1 - r)))) * w i ^ 2); [ring|]. rewrite sqrt_sqrt by nra. ring.
      * unfold lin, augmented_design. rewrite (proj2 (Nat.ltb_ge (n + i) n)) by lia. rewrite (Sum_single p _ i Hi); [rewrite Nat.eqb_refl; auto|].
        intros j Hj N. rewrite (proj2 (Nat.eqb_neq (n + i) (n + j))) by lia. ring.
  - intros i Hi. unfold augmented_targets. rewrite (proj2 (Nat.ltb_lt i n)) by auto. rewrite <- HU.
    replace (lin p (augmented_design n p (a * (1 - r)) X) w i) with (unit_change n p * lin p X w i); [ring|].
    unfold lin, augmented_design. rewrite (proj2 (Nat.ltb_lt i n)) by auto. rewrite <- Sum_scal. apply Sum_ext. intros. ring.
Qed.
