(** Fits in other units and with repeated samples. *)
From Coq Require Import List ZArith Bool Arith Reals Lra Lia.
From Verif Require Import Ops Arr MUtils MDatasets MDatafits MDatafitsMT MPenalties MBlockPenalties MCd MBcd MHyper MEstimators XR SpecPen VecR PBase RSum SpecLin SpecData SpecDatafit PProx PProxBlock PSubdiff PSubdiffBlock PPenVal
  PLin PData PDatafit PDataProps SpecSolve PLaws SpecOpt SpecOrth SpecScale PRef PRefCD PRefBCD PRefPen PSim PFit PSym PFitOpt POrth PScale.
Import ListNotations.
Open Scope R_scope.

(** *** penalties *)
Lemma rsoft_sc w x t : 0 < w -> rsoft (w * x) (w * t) = w * rsoft x t.
Proof.
  intros Hw. unfold rsoft. rewrite ltb_sc by auto. replace (- (w * t)) with (w * - t) by ring. rewrite ltb_sc by auto. destruct (Rltb t x), (Rltb x (- t)); ring.
Qed.
Lemma rsign_sc w x : 0 < w -> rsign (w * x) = rsign x.
Proof. intros Hw. unfold rsign. rewrite <- (ltb_sc w x 0 Hw). rewrite Rmult_0_r. reflexivity. Qed.
Lemma abs_sc w x : 0 < w -> Rabs (w * x) = w * Rabs x.
Proof. intros Hw. rewrite Rabs_mult, (Rabs_right w) by lra. auto. Qed.
Lemma max_sc w a b : 0 < w -> Rmax 0 (w * a - w * b) = w * Rmax 0 (a - b).
Proof. intros Hw. rewrite <- RmaxRmult by lra. f_equal; ring. Qed.

(** a penalty in the units given by the factor [w] of the coefficients and [lam] of the curvatures *)
Definition in_units (w lam : R) (k k' : single_pen) : Prop :=
  match k, k' with
  | LassoPen a, LassoPen a' => a' = w * lam * a
  | EnetPen a q, EnetPen a' q' => a' * q' = w * lam * (a * q) /\ a' * (1 - q') = lam * (a * (1 - q))
  | McpPen a g, McpPen a' g' => a' = w * lam * a /\ g' = g / lam
  | _, _ => False
  end.
Lemma pen1_sc w lam k k' x : 0 < w -> 0 < lam -> pen1_range k -> in_units w lam k k' -> pen1 k' (w * x) = w * w * lam * pen1 k x.
Proof.
  intros Hw Hl. destruct k as [a|a q|a g], k' as [a'|a' q'|a' g']; cbn [pen1 pen1_range in_units]; try contradiction.
  - intros _ ->. unfold abs_pen. rewrite abs_sc by auto. ring.
  - intros _ [E1 E2]. unfold enet_pen. rewrite abs_sc by auto.
    transitivity (a' * q' * (w * Rabs x) + a' * (1 - q') / 2 * (w * x) ^ 2); [field|]. rewrite E1, E2. field.
  - intros [_ Hg] [-> ->]. unfold mcp_pen. rewrite abs_sc by auto. replace (g / lam * (w * lam * a)) with (w * (g * a)) by (field; lra).
    destruct (Rle_dec (w * Rabs x) (w * (g * a))) as [H|H], (Rle_dec (Rabs x) (g * a)) as [H'|H']; try (exfalso; nra); field; repeat split; lra.
Qed.
Lemma prox1_sc w lam L k k' x : 0 < w -> 0 < lam -> 0 < L -> pen1_range k -> in_units w lam k k' -> prox1 k' (w * x) (1 / (lam * L)) = w * prox1 k x (1 / L).
Proof.
  intros Hw Hl HL. destruct k as [a|a q|a g], k' as [a'|a' q'|a' g']; cbn [prox1 pen1_range in_units]; try contradiction.
  - intros _ ->. replace (w * lam * a * (1 / (lam * L))) with (w * (a * (1 / L))) by (field; lra). apply rsoft_sc; auto.
  - intros _ [E1 E2]. unfold enet_prox. replace (q' * a' * (1 / (lam * L))) with (w * (q * a * (1 / L))).
    + rewrite rsoft_sc by auto. replace (1 / (lam * L) * (1 - q') * a') with (1 / L * (1 - q) * a); [unfold Rdiv; ring|].
      transitivity (1 / (lam * L) * (a' * (1 - q'))); [rewrite E2; field; lra|ring].
    + transitivity (1 / (lam * L) * (a' * q')); [rewrite E1; field; lra|ring].
  - intros [_ Hg] [-> ->]. unfold rmcp_prox. rewrite abs_sc by auto.
    replace (w * lam * a * (1 / (lam * L))) with (w * (a * (1 / L))) by (field; lra). replace (g / lam / (1 / (lam * L))) with (g / (1 / L)) by (field; lra).
    replace (g / (1 / L) * (w * (a * (1 / L)))) with (w * (g / (1 / L) * (a * (1 / L)))) by ring. rewrite leb_sc, ltb_sc by auto.
    rewrite <- (Rmult_0_r w) at 2. rewrite ltb_sc by auto. destruct (Rleb _ _); [ring|]. destruct (Rltb _ (Rabs x)); [ring|]. unfold Rdiv. ring.
Qed.
Lemma dist1_sc w lam k k' x h : 0 < w -> 0 < lam -> pen1_range k -> in_units w lam k k' -> dist1 k' (w * x) (w * lam * h) = w * lam * dist1 k x h.
Proof.
  intros Hw Hl. assert (Hd : 0 < w * lam) by (apply Rmult_lt_0_compat; auto).
  destruct k as [a|a q|a g], k' as [a'|a' q'|a' g']; cbn [dist1 pen1_range in_units]; try contradiction.
  - intros _ ->. unfold r_l1_score. rewrite eqb_sc, rsign_sc, abs_sc by auto. destruct (Reqb x 0); [apply max_sc; auto|]. rewrite <- abs_sc by auto. f_equal. ring.
  - intros _ [E1 E2]. unfold r_l1l2_score. rewrite eqb_sc, rsign_sc, abs_sc by auto. destruct (Reqb x 0); [rewrite E1; apply max_sc; auto|]. rewrite <- abs_sc by auto. f_equal.
    transitivity (- (w * lam * h) - (rsign x * (a' * q') + a' * (1 - q') * (w * x))); [ring|]. rewrite E1, E2. ring.
  - intros [_ Hg] [-> ->]. unfold r_mcp_score. rewrite eqb_sc, rsign_sc, !abs_sc by auto. destruct (Reqb x 0); [apply max_sc; auto|].
    replace (w * lam * a * (g / lam)) with (w * (a * g)) by (field; lra). rewrite ltb_sc by auto. destruct (Rltb _ _); auto. rewrite <- abs_sc by auto. f_equal. field. lra.
Qed.

(** *** repeated samples *)
Lemma Sum_rep r n f : Sum (r * n) (fun i => f (i mod n)%nat) = INR r * Sum n f.
Proof.
  destruct (Nat.eq_dec n 0) as [->|Hn]; [rewrite Nat.mul_0_r, !Sum_0; ring|]. induction r as [|r IH]; [simpl; rewrite Sum_0; ring|].
  replace (S r * n)%nat with (r * n + n)%nat by lia. rewrite Sum_add, IH, S_INR. rewrite (Sum_ext n (fun i => f ((r * n + i) mod n)%nat) f); [ring|].
  intros i Hi. f_equal. rewrite Nat.add_comm, Nat.mod_add by auto. apply Nat.mod_small; auto.
Qed.
Lemma INR_pos m : (1 <= m)%nat -> 0 < INR m. Proof. intros. apply lt_0_INR. lia. Qed.
Section Data.
Variables (r n p T : nat) (kap c : R) (X X' : rmat) (Hn : (1 <= n)%nat) (Hr : (1 <= r)%nat) (Hk : 0 < kap) (Hc : 0 < c).
Hypothesis (HX : forall i j, (i < r * n)%nat -> (j < p)%nat -> X' i j = kap * X (i mod n)%nat j).
Let w := c / kap.
Let lam := kap ^ 2.
Definition RZs (Z Z' : rmat) : Prop := forall i t, (i < r * n)%nat -> (t < T)%nat -> Z' i t = c * Z (i mod n)%nat t.
Lemma w_pos : 0 < w. Proof. apply Rdiv_lt_0_compat; auto. Qed.
Lemma lam_pos : 0 < lam. Proof. unfold lam. apply pow_lt; auto. Qed.
Lemma w_lam : w * lam = kap * c. Proof. unfold w, lam. field. lra. Qed.
Lemma w_kap : kap * w = c. Proof. unfold w. field. lra. Qed.
Lemma INR_rn : INR (r * n) = INR r * INR n. Proof. apply mult_INR. Qed.
Lemma rz_0 : RZs (fun _ _ => 0) (fun _ _ => 0).
Proof. intros i t _ _. ring. Qed.
Lemma rz_upd Z Z' j u u' : RZs Z Z' -> (j < p)%nat -> (forall t, (t < T)%nat -> u' t = w * u t) -> RZs (fun i t => Z i t + u t * X i j) (fun i t => Z' i t + u' t * X' i j).
Proof. intros HZ Hj Hu i t Hi Ht. rewrite HZ, Hu, HX by auto. rewrite <- w_kap. ring. Qed.
Lemma rz_fit V V' ws : (forall j t, (j < p)%nat -> (t < T)%nat -> V' j t = w * V j t) -> (forall j, In j ws -> (j < p)%nat) ->
  RZs (fun i t => Rsum (map (fun j => X i j * V j t) ws)) (fun i t => Rsum (map (fun j => X' i j * V' j t) ws)).
Proof.
  intros HV Hin i t Hi Ht. induction ws as [|j ws IH]; [simpl; ring|]. cbn [map]. change (Rsum (?a :: ?l)) with (a + Rsum l).
  rewrite IH by (intros; apply Hin; right; auto). rewrite HX, HV by (auto; apply Hin; left; auto). rewrite <- w_kap. ring.
Qed.
Lemma Lq_rep j : (j < p)%nat -> Lq (r * n) X' j = lam * Lq n X j.
Proof.
  intros Hj. unfold Lq, lam. rewrite (Sum_ext (r * n) _ (fun i => kap ^ 2 * (X (i mod n)%nat j * X (i mod n)%nat j))) by (intros; rewrite HX by auto; ring).
  rewrite Sum_scal, (Sum_rep r n (fun i => X i j * X i j)), INR_rn. pose proof (INR_pos n Hn). pose proof (INR_pos r Hr). field. lra.
Qed.
Lemma gq_rep Y Y' Z Z' j t : (forall i t, (i < r * n)%nat -> (t < T)%nat -> Y' i t = c * Y (i mod n)%nat t) -> RZs Z Z' -> (j < p)%nat -> (t < T)%nat ->
  gq (r * n) X' Y' Z' j t = w * lam * gq n X Y Z j t.
Proof.
  intros HY HZ Hj Ht. unfold gq. rewrite w_lam.
  assert (E : forall A A', RZs A A' -> Sum (r * n) (fun i => X' i j * A' i t) = kap * c * (INR r * Sum n (fun i => X i j * A i t))).
  { intros A A' HA. rewrite (Sum_ext (r * n) _ (fun i => kap * c * (X (i mod n)%nat j * A (i mod n)%nat t))) by (intros; rewrite HX, HA by auto; ring).
    rewrite Sum_scal, (Sum_rep r n (fun i => X i j * A i t)). auto. }
  rewrite (E Z Z'), (E Y Y'), INR_rn by auto. pose proof (INR_pos n Hn). pose proof (INR_pos r Hr). field. lra.
Qed.
Lemma quad_rep Y Y' Z Z' : (forall i t, (i < r * n)%nat -> (t < T)%nat -> Y' i t = c * Y (i mod n)%nat t) -> RZs Z Z' ->
  quad_loss_mt (r * n) T Y' Z' = w * w * lam * quad_loss_mt n T Y Z.
Proof.
  intros HY HZ. unfold quad_loss_mt.
  rewrite (Sum_ext (r * n) _ (fun i => c ^ 2 * Sum T (fun t => (Y (i mod n)%nat t - Z (i mod n)%nat t) ^ 2))).
  - rewrite Sum_scal, (Sum_rep r n (fun i => Sum T (fun t => (Y i t - Z i t) ^ 2))), INR_rn. unfold w, lam. pose proof (INR_pos n Hn). pose proof (INR_pos r Hr). field. lra.
  - intros i Hi. rewrite <- Sum_scal. apply Sum_ext. intros t Ht. rewrite HY, HZ by auto. ring.
Qed.
End Data.
Lemma Ll_rep r n p kap c X X' j : (1 <= n)%nat -> (1 <= r)%nat -> 0 < kap -> 0 < c -> (forall i j, (i < r * n)%nat -> (j < p)%nat -> X' i j = kap * X (i mod n)%nat j) -> (j < p)%nat ->
  Ll (r * n) X' j = kap ^ 2 * Ll n X j.
Proof.
  intros Hn Hr Hk Hc HX Hj. pose proof (Lq_rep r n p kap X X' Hn Hr HX j Hj) as E. unfold Lq in E. unfold Ll.
  pose proof (INR_pos n Hn). pose proof (INR_pos (r * n) ltac:(nia)).
  transitivity (Sum (r * n) (fun i => X' i j * X' i j) / INR (r * n) / 4); [field; lra|]. rewrite E. field. lra.
Qed.
Lemma gl_rep r n p kap X X' y y' Z Z' j : (1 <= n)%nat -> (1 <= r)%nat -> 0 < kap -> (forall i j, (i < r * n)%nat -> (j < p)%nat -> X' i j = kap * X (i mod n)%nat j) ->
  (forall i, (i < r * n)%nat -> y' i = 1 * y (i mod n)%nat) -> RZs r n 1 1 Z Z' -> (j < p)%nat -> gl (r * n) X' y' Z' j = kap * gl n X y Z j.
Proof.
  intros Hn Hr Hk HX Hy HZ Hj. unfold gl.
  rewrite (Sum_ext (r * n) _ (fun i => kap * (X (i mod n)%nat j * (y (i mod n)%nat * sig (- y (i mod n)%nat * Z (i mod n)%nat 0%nat))))).
  - rewrite Sum_scal, (Sum_rep r n (fun i => X i j * (y i * sig (- y i * Z i 0%nat)))), mult_INR. pose proof (INR_pos n Hn). pose proof (INR_pos r Hr). field. lra.
  - intros i Hi. rewrite HX, Hy, (HZ i 0%nat) by (auto; lia). rewrite !Rmult_1_l. ring.
Qed.
Lemma logloss_rep r n y y' Z Z' : (1 <= n)%nat -> (1 <= r)%nat -> (forall i, (i < r * n)%nat -> y' i = 1 * y (i mod n)%nat) -> RZs r n 1 1 Z Z' -> logloss (r * n) y' Z' = logloss n y Z.
Proof.
  intros Hn Hr Hy HZ. unfold logloss, logistic_loss.
  rewrite (Sum_ext (r * n) _ (fun i => ln (1 + exp (- (y (i mod n)%nat * Z (i mod n)%nat 0%nat))))).
  - rewrite (Sum_rep r n (fun i => ln (1 + exp (- (y i * Z i 0%nat))))), mult_INR. pose proof (INR_pos n Hn). pose proof (INR_pos r Hr). field. lra.
  - intros i Hi. rewrite Hy, (HZ i 0%nat) by (auto; lia). rewrite !Rmult_1_l. auto.
Qed.

(** *** the problems simulate each other *)
Lemma in_units_of kap c k k' : 0 < kap -> 0 < c -> rescaled_pen kap c k k' -> in_units (c / kap) (kap ^ 2) k k'.
Proof.
  intros Hk Hc. pose proof (w_lam kap c Hk) as E. destruct k as [a|a q|a g], k' as [a'|a' q'|a' g']; cbn [rescaled_pen in_units]; try contradiction; rewrite E; auto.
Qed.
Lemma ssim1 l k k' r n p kap c X X' y y' : (1 <= n)%nat -> (1 <= r)%nat -> 0 < kap -> 0 < c -> (l = Logistic -> c = 1) -> rescaled_data r n p kap c X y X' y' -> pen1_range k -> rescaled_pen kap c k k' ->
  ssim (prob1 l k n p X y) (prob1 l k' (r * n) p X' y') (c / kap) (kap ^ 2) (RZs r n 1 c).
Proof.
  intros Hn Hr Hk Hc HL [HX Hy] Hrg HU. apply in_units_of in HU; auto. pose proof (w_pos kap c Hk Hc) as Hw. pose proof (lam_pos kap Hk) as Hl.
  assert (PR : forall v L, 0 < L -> length v = 1%nat -> map (fun x => prox1 k' x (1 / (kap ^ 2 * L))) (vscale (c / kap) v) = vscale (c / kap) (map (fun x => prox1 k x (1 / L)) v) /\ length (map (fun x => prox1 k x (1 / L)) v) = 1%nat).
  { intros v L HL0 Hv. destruct (len1 v Hv) as (x & ->). cbn [vscale map length]. split; auto. f_equal. apply prox1_sc; auto. }
  assert (PV : forall v, length v = 1%nat -> pen1 k' (nth 0 (vscale (c / kap) v) 0) = c / kap * (c / kap) * kap ^ 2 * pen1 k (nth 0 v 0)).
  { intros v Hv. destruct (len1 v Hv) as (x & ->). cbn [vscale map nth]. apply pen1_sc; auto. }
  assert (PD : forall v h, length v = 1%nat -> length h = 1%nat -> dist1 k' (nth 0 (vscale (c / kap) v) 0) (nth 0 (vscale (c / kap * kap ^ 2) h) 0) = c / kap * kap ^ 2 * dist1 k (nth 0 v 0) (nth 0 h 0)).
  { intros v h Hv Hh. destruct (len1 v Hv) as (x & ->), (len1 h Hh) as (g & ->). cbn [vscale map nth]. apply dist1_sc; auto. }
  assert (UP : forall Z Z' j u u', RZs r n 1 c Z Z' -> (j < p)%nat -> (forall t, (t < 1)%nat -> u' t = c / kap * u t) -> RZs r n 1 c (fun i t => Z i t + u t * X i j) (fun i t => Z' i t + u' t * X' i j)).
  { intros. apply (rz_upd r n p 1 kap c X X'); auto. }
  assert (FT : forall V V' ws, (forall j t, (j < p)%nat -> (t < 1)%nat -> V' j t = c / kap * V j t) -> (forall j, In j ws -> (j < p)%nat) ->
    RZs r n 1 c (fun i t => Rsum (map (fun j => X i j * V j t) ws)) (fun i t => Rsum (map (fun j => X' i j * V' j t) ws))).
  { intros. apply (rz_fit r n p 1 kap c X X'); auto. }
  destruct l; constructor; cbn [prob1 quadP logP single_problem pn pp pT pX pf pg pL pprox ppv pdist]; auto.
  - apply rz_0.
  - intros Z Z' HZ. apply quad_rep; auto.
  - intros Z Z' j t HZ Hj Ht. apply (gq_rep r n p 1); auto.
  - intros j Hj. apply (Lq_rep r n p kap X X'); auto.
  - intros j Hj. apply Lq_nonneg; auto.
  - apply rz_0.
  - intros Z Z' HZ. rewrite (HL eq_refl) in *. rewrite (logloss_rep r n y y' Z Z') by auto. field. lra.
  - intros Z Z' j t HZ Hj Ht. rewrite (HL eq_refl) in *. unfold glT. rewrite (gl_rep r n p kap X X' y y' Z Z') by auto. field. lra.
  - intros j Hj. apply (Ll_rep r n p kap c X X'); auto.
  - intros j Hj. apply Ll_nonneg; auto.
Qed.

Section Fit.
Variables (srt : list xr -> list nat) (VS : valid_sort xops srt) (n p r : nat) (Hn : (1 <= n)%nat) (Hr : (1 <= r)%nat) (kap c : R) (Hk : 0 < kap) (Hc : 0 < c).
Hypothesis (BC : kap * c = 1 \/ by_comparison xops srt).
Let Hrn : (1 <= r * n)%nat. Proof. nia. Qed.
Let BC' : c / kap * kap ^ 2 = 1 \/ by_comparison xops srt. Proof. rewrite (w_lam kap c Hk). exact BC. Qed.
Lemma rescaled_single X y X' y' l k k' s s' fit fit' : single_fit srt n p X y l k s fit -> single_fit srt (r * n) p X' y' l k' s' fit' -> accepted fit -> accepted fit' ->
  rescaled_data r n p kap c X y X' y' -> (l = Logistic -> c = 1) -> rescaled_pen kap c k k' -> rescaled_settings kap c s s' ->
  forall m, (exists e, fit m = Panic e /\ fit' m = Panic e) \/ (exists w, fit m = Ret (Ok (xv p w)) /\ fit' m = Ret (Ok (xv p (fun j => c / kap * w j)))).
Proof.
  intros HF HF' Ha Ha' HD HL HP (EK & EW & EM & EA & tol & Et & Et') m.
  destruct (single_run srt VS n p Hn X y l k s fit HF) as [(e & He)|[Hrg Hgo]]; [exfalso; apply (Ha 0%nat e); auto|].
  destruct (single_run srt VS (r * n) p Hrn X' y' l k' s' fit' HF') as [(e & He)|[Hrg' Hgo']]; [exfalso; apply (Ha' 0%nat e); auto|].
  rewrite Hgo, Hgo'. unfold go1, run1. rewrite EK, EW, EM, EA, Et, Et'.
  assert (SS := ssim1 l k k' r n p kap c X X' y y' Hn Hr Hk Hc HL HD Hrg HP).
  assert (R := srel_solve (prob1 l k n p X y) (prob1 l k' (r * n) p X' y') srt (c / kap) (kap ^ 2) (RZs r n 1 c) VS
    ltac:(destruct l; reflexivity) ltac:(destruct l; reflexivity) (w_pos kap c Hk Hc) (lam_pos kap Hk) BC' SS tol (s_K s) (s_use_acceleration s) (s_ws_start_size s) (s_max_epochs s) m).
  rewrite (w_lam kap c Hk) in R.
  destruct (rsolve (prob1 l k n p X y) _ _ _ _ _ _ _) as [[W Z]|e], (rsolve (prob1 l k' _ p X' y') _ _ _ _ _ _ _) as [[W' Z']|e']; cbn [rel_res] in R; try contradiction.
  - right. exists (fun j => W j 0%nat). split; [reflexivity|]. cbn [bind ok fst]. unfold ok. cbn [bind]. do 2 f_equal. unfold vW. apply xv_ext. intros j Hj. destruct R as [RW _]. cbn [fst] in RW.
    apply RW; destruct l; cbn [prob1 quadP logP single_problem pp pT]; auto.
  - left. subst e'. exists e. split; reflexivity.
Qed.

(** several tasks *)
Lemma mt_kind k k' : rescaled_pen kap c (of_norm k) (of_norm k') ->
  match k, k' with MtLassoPen _, MtLassoPen _ | MtEnetPen _ _, MtEnetPen _ _ | BlockMcpPen _ _, BlockMcpPen _ _ => True | _, _ => False end.
Proof. destruct k, k'; cbn; auto. Qed.
Lemma penT_of k v : penT k v = pen1 (of_norm k) (norm2 v).
Proof. destruct k; reflexivity. Qed.
Lemma range_of k : penT_range k -> pen1_range (of_norm k).
Proof. destruct k; cbn; lra. Qed.
Lemma penT_sc k k' v : penT_range k -> rescaled_pen kap c (of_norm k) (of_norm k') -> penT k' (vscale (c / kap) v) = c / kap * (c / kap) * kap ^ 2 * penT k v.
Proof.
  intros Hrg HU. pose proof (w_pos kap c Hk Hc) as Hw. rewrite !penT_of, norm2_scale, (Rabs_right (c / kap)) by lra. apply pen1_sc; auto; [apply lam_pos; auto|apply range_of; auto|apply in_units_of; auto].
Qed.
Lemma proxT_sc k k' v L : penT_range k -> penT_range k' -> 0 < L -> rescaled_pen kap c (of_norm k) (of_norm k') ->
  proxT k' (vscale (c / kap) v) (1 / (kap ^ 2 * L)) = vscale (c / kap) (proxT k v (1 / L)).
Proof.
  intros Hrg Hrg' HL HU. pose proof (w_pos kap c Hk Hc) as Hw. pose proof (lam_pos kap Hk) as Hl. assert (0 < kap ^ 2 * L) by (apply Rmult_lt_0_compat; auto).
  rewrite !proxT_radial by (auto; apply Rdiv_lt_0_compat; lra). rewrite norm2_scale, (Rabs_right (c / kap)) by lra.
  rewrite (prox1_sc (c / kap) (kap ^ 2) L (of_norm k) (of_norm k')) by (auto using range_of, in_units_of).
  unfold vscale. rewrite !map_map. apply map_ext. intros x. destruct (Req_dec (norm2 v) 0) as [E|E]; [rewrite E, Rmult_0_r; unfold Rdiv; rewrite Rinv_0; ring|]. field. repeat split; lra.
Qed.
Lemma scale_scale a b v : vscale a (vscale b v) = vscale (a * b) v.
Proof. unfold vscale. rewrite map_map. apply map_ext. intros. ring. Qed.
Lemma minus_neg_scale a b u v : vminus (vneg (vscale a u)) (vscale (a * b) v) = vscale a (vminus (vneg u) (vscale b v)).
Proof. revert v. induction u as [|x u IH]; intros [|y v]; cbn; auto. unfold vneg, vscale in *. cbn. f_equal; [ring|apply IH]. Qed.
Lemma distT_sc k k' v h : penT_range k -> rescaled_pen_mt kap c k k' -> distT k' (vscale (c / kap) v) (vscale (kap * c) h) = kap * c * distT k v h.
Proof.
  intros Hrg [HU HE]. pose proof (w_pos kap c Hk Hc) as Hw. assert (Hd : 0 < kap * c) by (apply Rmult_lt_0_compat; auto).
  assert (NW : forall u, norm2 (vscale (c / kap) u) = c / kap * norm2 u) by (intros; rewrite norm2_scale, Rabs_right by lra; auto).
  assert (ND : forall u, norm2 (vscale (kap * c) u) = kap * c * norm2 u) by (intros; rewrite norm2_scale, Rabs_right by lra; auto).
  destruct k as [a|a q|a g], k' as [a'|a' q'|a' g']; cbn [of_norm rescaled_pen distT penT_range] in *; try contradiction.
  - subst a'. unfold r_l21_score. rewrite NW, eqb_sc by auto. destruct (Reqb (norm2 v) 0) eqn:E0; rb; [rewrite ND; apply max_sc; auto|].
    rewrite scale_scale. rewrite <- ND. f_equal. rewrite <- minus_neg_scale. do 2 f_equal. field. repeat split; lra.
  - destruct HU as [E1 E2]. unfold r_bl1l2_score. rewrite NW, eqb_sc by auto. destruct (Reqb (norm2 v) 0) eqn:E0; rb; [rewrite ND, E1, HE, !Rmult_1_l; auto|].
    rewrite scale_scale. rewrite <- ND. f_equal. rewrite <- minus_neg_scale. do 2 f_equal.
    transitivity (a' * q' / norm2 v + a' * (1 - q') * (c / kap)); [field; repeat split; lra|]. rewrite E1, E2. field. repeat split; lra.
  - destruct HU as [-> ->]. unfold r_bmcp_score. rewrite NW, eqb_sc by auto. destruct (Reqb (norm2 v) 0) eqn:E0; rb; [rewrite ND; apply max_sc; auto|].
    replace (kap * c * a * (g / kap ^ 2)) with (c / kap * (a * g)) by (field; lra). rewrite ltb_sc by auto. destruct (Rltb _ _); [|auto].
    rewrite scale_scale. rewrite <- ND. f_equal. rewrite scale_scale. f_equal. field. repeat split; lra.
Qed.
Lemma ssimT k k' T X X' Y Y' : rescaled_data_mt r n p T kap c X Y X' Y' -> penT_range k -> penT_range k' -> rescaled_pen_mt kap c k k' ->
  ssim (probT k n p T X Y) (probT k' (r * n) p T X' Y') (c / kap) (kap ^ 2) (RZs r n T c).
Proof.
  intros [HX HY] Hrg Hrg' HU. pose proof (w_pos kap c Hk Hc) as Hw. pose proof (lam_pos kap Hk) as Hl.
  constructor; cbn [probT mtP pn pp pT pX pf pg pL pprox ppv pdist]; auto.
  - apply rz_0.
  - intros. apply (rz_upd r n p T kap c X X'); auto.
  - intros V V' ws HV Hin. apply (rz_fit r n p T kap c X X'); auto.
  - intros Z Z' HZ. apply quad_rep; auto.
  - intros Z Z' j t HZ Hj Ht. apply (gq_rep r n p T); auto.
  - intros j Hj. apply (Lq_rep r n p kap X X'); auto.
  - intros j Hj. apply Lq_nonneg; auto.
  - intros v j Hv Hj HL. split; [apply proxT_sc; auto; apply HU|]. rewrite proxT_radial by (auto; apply Rdiv_lt_0_compat; lra). unfold vscale. rewrite map_length. auto.
  - intros v Hv. apply penT_sc; auto. apply HU.
  - intros v h Hv Hh. rewrite (w_lam kap c Hk). apply distT_sc; auto.
Qed.
Lemma rescaled_multi T X Y X' Y' k k' s s' fit fit' : multi_fit srt n p T X Y k s fit -> multi_fit srt (r * n) p T X' Y' k' s' fit' -> accepted fit -> accepted fit' ->
  rescaled_data_mt r n p T kap c X Y X' Y' -> rescaled_pen_mt kap c k k' -> rescaled_settings kap c s s' ->
  forall m, (exists e, fit m = Panic e /\ fit' m = Panic e) \/ (exists W, fit m = Ret (Ok (xm p T W)) /\ fit' m = Ret (Ok (xm p T (fun j t => c / kap * W j t)))).
Proof.
  intros HF HF' Ha Ha' HD HP (EK & EW & EM & EA & tol & Et & Et') m.
  destruct (multi_run srt VS n p Hn T X Y k s fit HF) as [Hrg [(e & He)|Hgo]]; [exfalso; apply (Ha 0%nat e); auto|].
  destruct (multi_run srt VS (r * n) p Hrn T X' Y' k' s' fit' HF') as [Hrg' [(e & He)|Hgo']]; [exfalso; apply (Ha' 0%nat e); auto|].
  rewrite Hgo, Hgo'. unfold goT, runT. rewrite EK, EW, EM, EA, Et, Et'.
  assert (SS := ssimT k k' T X X' Y Y' HD Hrg Hrg' HP).
  assert (R := srel_solve (probT k n p T X Y) (probT k' (r * n) p T X' Y') srt (c / kap) (kap ^ 2) (RZs r n T c) VS
    eq_refl eq_refl (w_pos kap c Hk Hc) (lam_pos kap Hk) BC' SS tol (s_K s) (s_use_acceleration s) (s_ws_start_size s) (s_max_epochs s) m).
  rewrite (w_lam kap c Hk) in R.
  destruct (rsolve (probT k n p T X Y) _ _ _ _ _ _ _) as [[W Z]|e], (rsolve (probT k' _ p T X' Y') _ _ _ _ _ _ _) as [[W' Z']|e']; cbn [rel_res] in R; try contradiction.
  - right. exists W. split; [reflexivity|]. cbn [bind ok fst]. unfold ok. cbn [bind]. do 2 f_equal. apply xm_ext. intros j t Hj Ht. destruct R as [RW _]. cbn [fst] in RW. apply RW; auto.
  - left. subst e'. exists e. split; reflexivity.
Qed.
End Fit.

(** *** repeated samples, same units *)
Lemma units_1 k : rescaled_pen 1 1 k k.
Proof. destruct k; cbn; try split; field. Qed.
Lemma settings_1 s tol : s_tolerance s = Fin tol -> rescaled_settings 1 1 s s.
Proof. intros E. repeat split. exists tol. split; auto. rewrite E. f_equal. ring. Qed.
Lemma repeated_single srt (VS : valid_sort xops srt) n p r X y X' y' l k s fit fit' tol : (1 <= n)%nat -> (1 <= r)%nat -> single_fit srt n p X y l k s fit -> single_fit srt (r * n) p X' y' l k s fit' ->
  accepted fit -> accepted fit' -> s_tolerance s = Fin tol -> (forall i j, (i < r * n)%nat -> (j < p)%nat -> X' i j = X (i mod n)%nat j) -> (forall i, (i < r * n)%nat -> y' i = y (i mod n)%nat) ->
  forall m, fit' m = fit m.
Proof.
  intros Hn Hr HF HF' Ha Ha' Et HX Hy m.
  destruct (rescaled_single srt VS n p r Hn Hr 1 1 Rlt_0_1 Rlt_0_1 (or_introl (Rmult_1_l 1)) X y X' y' l k k s s fit fit' HF HF' Ha Ha') with (m := m) as [(e & -> & ->)|(w & -> & ->)]; auto.
  - split; intros; [rewrite HX by auto|rewrite Hy by auto]; ring.
  - apply units_1.
  - apply (settings_1 s tol Et).
  - do 2 f_equal. apply xv_ext. intros. field.
Qed.
Lemma repeated_multi srt (VS : valid_sort xops srt) n p T r X Y X' Y' k s fit fit' tol : (1 <= n)%nat -> (1 <= r)%nat -> multi_fit srt n p T X Y k s fit -> multi_fit srt (r * n) p T X' Y' k s fit' ->
  accepted fit -> accepted fit' -> s_tolerance s = Fin tol -> (forall i j, (i < r * n)%nat -> (j < p)%nat -> X' i j = X (i mod n)%nat j) -> (forall i t, (i < r * n)%nat -> (t < T)%nat -> Y' i t = Y (i mod n)%nat t) ->
  forall m, fit' m = fit m.
Proof.
  intros Hn Hr HF HF' Ha Ha' Et HX Hy m.
  destruct (rescaled_multi srt VS n p r Hn Hr 1 1 Rlt_0_1 Rlt_0_1 (or_introl (Rmult_1_l 1)) T X Y X' Y' k k s s fit fit' HF HF' Ha Ha') with (m := m) as [(e & -> & ->)|(w & -> & ->)]; auto.
  - split; intros; [rewrite HX by auto|rewrite Hy by auto]; ring.
  - split; [apply units_1|destruct k; auto; ring].
  - apply (settings_1 s tol Et).
  - do 2 f_equal. apply xm_ext. intros. field.
Qed.
