(** Fits on negated targets and on combined tasks. *)
From Coq Require Import List ZArith Bool Arith Reals Lra Lia.
From Verif Require Import Ops Arr MUtils MDatasets MDatafits MDatafitsMT MPenalties MBlockPenalties MCd MBcd MHyper MEstimators XR SpecPen VecR PBase RSum SpecLin SpecData SpecDatafit PProx PProxBlock PSubdiff PSubdiffBlock PPenVal
  PLin PData PDatafit PDataProps SpecSolve PLaws SpecOpt SpecOrth PRef PRefCD PRefBCD PRefPen PSim PFit PSym PFitOpt POrth PDescent PConv PTheory PCert PStrict SpecNull PNullFit PMore SpecPath PPath PStab PScale PScaleFit SpecRot PRot.
Import ListNotations.
Open Scope R_scope.

(** *** several tasks *)
Section Tasks.
Variables (n p T T' : nat) (Q : rmat) (Hn : (1 <= n)%nat) (HQ : isometry T T' Q).
Local Notation rotQ := (rot T T' Q).
Lemma rot_neg v : length v = T -> rotQ (vneg v) = vneg (rotQ v).
Proof. intros. rewrite !vneg_scale. apply rot_scale; auto. Qed.
Lemma proxT_rot k v s : penT_range k -> 0 < s -> length v = T -> proxT k (rotQ v) s = rotQ (proxT k v s) /\ length (proxT k v s) = T.
Proof.
  intros Hr Hs Hv. rewrite !proxT_radial by auto. rewrite rot_norm, rot_scale by auto. split; auto. unfold vscale. rewrite map_length. auto.
Qed.
Lemma penT_rot k v : length v = T -> penT k (rotQ v) = penT k v.
Proof. intros Hv. rewrite !penT_of, rot_norm by auto. auto. Qed.
Lemma vscale_length c (v : list R) : length (vscale c v) = length v. Proof. apply map_length. Qed.
Lemma vneg_len v : length (vneg v) = length v. Proof. apply map_length. Qed.
Lemma vminus_length u v : length u = T -> length v = T -> length (vminus u v) = T.
Proof. revert u v. clear. induction T as [|m IH]; intros [|x u] [|y v]; simpl; intros; try discriminate; auto. Qed.
Lemma distT_rot k v h : length v = T -> length h = T -> distT k (rotQ v) (rotQ h) = distT k v h.
Proof.
  intros Hv Hh.
  assert (A : forall c, norm2 (vminus (vneg (rotQ h)) (vscale c (rotQ v))) = norm2 (vminus (vneg h) (vscale c v))).
  { intros c. rewrite <- rot_neg, <- rot_scale, <- rot_minus by (auto; rewrite ?vscale_length, ?vneg_len; auto). apply rot_norm; auto. apply vminus_length; rewrite ?vscale_length, ?vneg_len; auto. }
  destruct k as [a|a q|a g]; cbn [distT].
  - unfold r_l21_score. rewrite !rot_norm by auto. rewrite A. auto.
  - unfold r_bl1l2_score. rewrite !rot_norm by auto. rewrite A. auto.
  - unfold r_bmcp_score. rewrite !rot_norm by auto. rewrite <- (rot_scale T T' Q) by auto. rewrite (rot_norm T T' Q (vscale _ v)) by (auto; rewrite vscale_length; auto). auto.
Qed.
Lemma rsimT k X X' Y Y' : penT_range k -> (forall i j, (i < n)%nat -> (j < p)%nat -> X' i j = X i j) -> (forall i t, (i < n)%nat -> (t < T')%nat -> Y' i t = mixed T Y Q i t) ->
  rsim (probT k n p T X Y) (probT k n p T' X' Y') Q.
Proof.
  intros Hr HX HY. constructor; cbn [probT mtP pn pp pT pX pf pg pL pprox ppv pdist]; auto.
  - intros Z Z' HZ. unfold relZr in HZ. cbn [probT mtP pn pp pT] in HZ. unfold quad_loss_mt. f_equal. apply Sum_ext. intros i Hi.
    rewrite (Sum_ext T' _ (fun t => Sum T (fun u => (Y i u - Z i u) * Q u t) * Sum T (fun u => (Y i u - Z i u) * Q u t))).
    + rewrite rot_dot by auto. apply Sum_ext. intros. ring.
    + intros t Ht. rewrite HY, HZ by auto. unfold mixed. rewrite <- Sum_minus. rewrite (Sum_ext T _ (fun u => (Y i u - Z i u) * Q u t)) by (intros; ring). ring.
  - intros Z Z' j t HZ Hj Ht. unfold relZr in HZ. cbn [probT mtP pn pp pT] in HZ. unfold gq, mixed.
    rewrite (Sum_ext n (fun i => X' i j * Z' i t) (fun i => Sum T (fun u => X i j * Z i u * Q u t))).
    2:{ intros i Hi. rewrite HX, HZ by auto. unfold mixed. rewrite <- Sum_scal. apply Sum_ext. intros. ring. }
    rewrite (Sum_ext n (fun i => X' i j * Y' i t) (fun i => Sum T (fun u => X i j * Y i u * Q u t))).
    2:{ intros i Hi. rewrite HX, HY by auto. unfold mixed. rewrite <- Sum_scal. apply Sum_ext. intros. ring. }
    rewrite !(Sum_swap n T), <- Sum_minus. unfold Rdiv. rewrite <- Sum_scal_r. apply Sum_ext. intros u _. rewrite !Sum_scal_r. ring.
  - intros j Hj. unfold Lq. f_equal. apply Sum_ext. intros i Hi. rewrite HX by auto. auto.
  - intros j Hj. apply Lq_nonneg; auto.
  - intros v s Hv Hs. apply proxT_rot; auto.
  - intros v Hv. apply penT_rot; auto.
  - intros v h Hv Hh. apply distT_rot; auto.
Qed.
End Tasks.

(** *** all targets negated *)
Definition minus (T : nat) : rmat := fun u t => if (u =? t)%nat then -1 else 0.
Lemma minus_mixed T A i t : (t < T)%nat -> mixed T A (minus T) i t = - A i t.
Proof.
  intros Ht. unfold mixed, minus. rewrite (Sum_single T _ t); [rewrite Nat.eqb_refl; ring|auto|]. intros u Hu Hne. rewrite (proj2 (Nat.eqb_neq u t)) by auto. ring.
Qed.
Lemma minus_iso T : isometry T T (minus T).
Proof.
  intros u v Hu Hv. unfold minus. rewrite (Sum_single T _ u); auto.
  - rewrite Nat.eqb_refl, (Nat.eqb_sym v u). destruct (u =? v)%nat; ring.
  - intros t Ht Hne. rewrite (proj2 (Nat.eqb_neq u t)) by auto. ring.
Qed.
Lemma rot_minus1 v : length v = 1%nat -> rot 1 1 (minus 1) v = vscale (-1) v.
Proof. intros Hv. destruct (len1 v Hv) as (x & ->). unfold rot, minus, tab, vscale, Sum, Rsum. simpl. f_equal. ring. Qed.
Lemma pen1_sym k : pen1_range k -> pen_sym 1 (lprox (prox1 k)) (lpv (pen1 k)) (ldist (dist1 k)).
Proof. destruct k as [a|a q|a g]; cbn [pen1_range prox1 pen1 dist1]; intros H; [apply l1_sym|apply l1l2_sym|apply mcp_sym]; lra. Qed.
Lemma rsim1 l k n p X X' y y' : (1 <= n)%nat -> pen1_range k -> (forall i j, (i < n)%nat -> (j < p)%nat -> X' i j = X i j) -> (forall i, (i < n)%nat -> y' i = - y i) ->
  rsim (prob1 l k n p X y) (prob1 l k n p X' y') (minus 1).
Proof.
  intros Hn Hr HX Hy. destruct (pen1_sym k Hr) as [SL SP SV SD]. unfold lprox, lpv, ldist in *.
  assert (ZR : forall Z Z', (forall i t, (i < n)%nat -> (t < 1)%nat -> Z' i t = mixed 1 Z (minus 1) i t) -> forall i, (i < n)%nat -> Z' i 0%nat = - Z i 0%nat).
  { intros Z Z' HZ i Hi. rewrite HZ by (auto; lia). apply minus_mixed. lia. }
  destruct l; constructor; cbn [prob1 quadP logP single_problem pn pp pT pX pf pg pL pprox ppv pdist]; auto.
  - intros Z Z' HZ. unfold relZr in HZ. cbn [prob1 quadP logP single_problem pn pp pT] in HZ. unfold quad_loss_mt. f_equal. apply Sum_ext. intros i Hi. apply Sum_ext. intros t Ht.
    replace t with 0%nat by lia. rewrite Hy, (ZR Z Z') by auto. ring.
  - intros Z Z' j t HZ Hj Ht. unfold relZr in HZ. cbn [prob1 quadP logP single_problem pn pp pT] in HZ. rewrite minus_mixed by auto. unfold gq. replace t with 0%nat by lia.
    rewrite (Sum_ext n (fun i => X' i j * Z' i 0%nat) (fun i => -1 * (X i j * Z i 0%nat))) by (intros; rewrite HX, (ZR Z Z') by auto; ring).
    rewrite (Sum_ext n (fun i => X' i j * y' i) (fun i => -1 * (X i j * y i))) by (intros; rewrite HX, Hy by auto; ring).
    rewrite !Sum_scal. unfold Rdiv. ring.
  - intros j Hj. unfold Lq. f_equal. apply Sum_ext. intros i Hi. rewrite HX by auto. auto.
  - intros j Hj. apply Lq_nonneg; auto.
  - intros v s Hv Hs. rewrite rot_minus1 by auto. rewrite SP by auto. split; [|rewrite map_length; auto]. symmetry. apply rot_minus1. rewrite map_length; auto.
  - intros v Hv. rewrite rot_minus1 by auto. apply SV; auto.
  - intros v h Hv Hh. rewrite !rot_minus1 by auto. apply SD; auto.
  - intros Z Z' HZ. unfold relZr in HZ. cbn [prob1 quadP logP single_problem pn pp pT] in HZ. unfold logloss, logistic_loss. f_equal. apply Sum_ext. intros i Hi.
    rewrite Hy, (ZR Z Z') by auto. do 4 f_equal. ring.
  - intros Z Z' j t HZ Hj Ht. unfold relZr in HZ. cbn [prob1 quadP logP single_problem pn pp pT] in HZ. rewrite minus_mixed by auto. unfold glT, gl.
    rewrite (Sum_ext n _ (fun i => -1 * (X i j * (y i * sig (- y i * Z i 0%nat))))).
    + rewrite Sum_scal. unfold Rdiv. ring.
    + intros i Hi. rewrite HX, Hy, (ZR Z Z') by auto. replace (- - y i * - Z i 0%nat) with (- y i * Z i 0%nat) by ring. ring.
  - intros j Hj. unfold Ll. f_equal. apply Sum_ext. intros i Hi. rewrite HX by auto. auto.
  - intros j Hj. apply Ll_nonneg; auto.
  - intros v s Hv Hs. rewrite rot_minus1 by auto. rewrite SP by auto. split; [|rewrite map_length; auto]. symmetry. apply rot_minus1. rewrite map_length; auto.
  - intros v Hv. rewrite rot_minus1 by auto. apply SV; auto.
  - intros v h Hv Hh. rewrite !rot_minus1 by auto. apply SD; auto.
Qed.

Section Fit.
Variables (srt : list xr -> list nat) (VS : valid_sort xops srt) (n p : nat) (Hn : (1 <= n)%nat).
Lemma negated_single X y y' l k s fit fit' : single_fit srt n p X y l k s fit -> single_fit srt n p X y' l k s fit' -> accepted fit -> accepted fit' ->
  (forall i, (i < n)%nat -> y' i = - y i) ->
  forall m, (exists e, fit m = Panic e /\ fit' m = Panic e) \/ (exists w, fit m = Ret (Ok (xv p w)) /\ fit' m = Ret (Ok (xv p (fun j => - w j)))).
Proof.
  intros HF HF' Ha Ha' Hy m.
  destruct (single_run srt VS n p Hn X y l k s fit HF) as [(e & He)|[Hrg Hgo]]; [exfalso; apply (Ha 0%nat e); auto|].
  destruct (single_run srt VS n p Hn X y' l k s fit' HF') as [(e & He)|[Hrg' Hgo']]; [exfalso; apply (Ha' 0%nat e); auto|].
  rewrite Hgo, Hgo'. unfold go1, run1.
  assert (SS := rsim1 l k n p X X y y' Hn Hrg (fun _ _ _ _ => eq_refl) Hy).
  assert (R := rrel_solve (prob1 l k n p X y) (prob1 l k n p X y') srt (minus 1) VS (s_use_acceleration s)
    ltac:(destruct l; reflexivity) ltac:(destruct l; apply minus_iso)
    ltac:(right; split; [destruct l; reflexivity|]; exists (-1); split; [lra|]; intros; reflexivity) SS (s_tolerance s) (s_K s) (s_ws_start_size s) (s_max_epochs s) m).
  destruct (rsolve (prob1 l k n p X y) _ _ _ _ _ _ _) as [[W Z]|e], (rsolve (prob1 l k n p X y') _ _ _ _ _ _ _) as [[W' Z']|e']; cbn [rel_res] in R; try contradiction.
  - right. exists (fun j => W j 0%nat). split; [reflexivity|]. cbn [bind ok fst]. unfold ok. cbn [bind]. do 2 f_equal. unfold vW. apply xv_ext. intros j Hj. destruct R as [RW _]. cbn [fst] in RW.
    rewrite RW by (destruct l; cbn [prob1 quadP logP single_problem pp pT]; auto). destruct l; apply minus_mixed; lia.
  - left. subst e'. exists e. split; reflexivity.
Qed.
Lemma mixed_multi T T' Q X Y Y' k s fit fit' : isometry T T' Q ->
  s_use_acceleration s = false \/ (T' = T /\ exists e, e <> 0 /\ forall u t, (u < T)%nat -> (t < T)%nat -> Q u t = if (u =? t)%nat then e else 0) ->
  multi_fit srt n p T X Y k s fit -> multi_fit srt n p T' X Y' k s fit' -> accepted fit -> accepted fit' ->
  (forall i t, (i < n)%nat -> (t < T')%nat -> Y' i t = mixed T Y Q i t) ->
  forall m, (exists e, fit m = Panic e /\ fit' m = Panic e) \/ (exists W, fit m = Ret (Ok (xm p T W)) /\ fit' m = Ret (Ok (xm p T' (mixed T W Q)))).
Proof.
  intros HQ HA HF HF' Ha Ha' HY m.
  destruct (multi_run srt VS n p Hn T X Y k s fit HF) as [Hrg [(e & He)|Hgo]]; [exfalso; apply (Ha 0%nat e); auto|].
  destruct (multi_run srt VS n p Hn T' X Y' k s fit' HF') as [Hrg' [(e & He)|Hgo']]; [exfalso; apply (Ha' 0%nat e); auto|].
  rewrite Hgo, Hgo'. unfold goT, runT.
  assert (SS := rsimT n p T T' Q Hn HQ k X X Y Y' Hrg (fun _ _ _ _ => eq_refl) HY).
  assert (R := rrel_solve (probT k n p T X Y) (probT k n p T' X Y') srt Q VS (s_use_acceleration s) eq_refl HQ HA SS (s_tolerance s) (s_K s) (s_ws_start_size s) (s_max_epochs s) m).
  destruct (rsolve (probT k n p T X Y) _ _ _ _ _ _ _) as [[W Z]|e], (rsolve (probT k n p T' X Y') _ _ _ _ _ _ _) as [[W' Z']|e']; cbn [rel_res] in R; try contradiction.
  - right. exists W. split; [reflexivity|]. cbn [bind ok fst]. unfold ok. cbn [bind]. do 2 f_equal. apply xm_ext. intros j t Hj Ht. destruct R as [RW _]. cbn [fst] in RW. apply RW; auto.
  - left. subst e'. exists e. split; reflexivity.
Qed.
Lemma negated_multi T X Y Y' k s fit fit' : multi_fit srt n p T X Y k s fit -> multi_fit srt n p T X Y' k s fit' -> accepted fit -> accepted fit' ->
  (forall i t, (i < n)%nat -> (t < T)%nat -> Y' i t = - Y i t) ->
  forall m, (exists e, fit m = Panic e /\ fit' m = Panic e) \/ (exists W, fit m = Ret (Ok (xm p T W)) /\ fit' m = Ret (Ok (xm p T (fun j t => - W j t)))).
Proof.
  intros HF HF' Ha Ha' HY m.
  destruct (mixed_multi T T (minus T) X Y Y' k s fit fit' (minus_iso T)) with (m := m) as [?|(W & E & E')]; auto.
  - right. split; auto. exists (-1). split; [lra|]. reflexivity.
  - intros. rewrite minus_mixed by auto. apply HY; auto.
  - right. exists W. split; auto. rewrite E'. do 2 f_equal. apply xm_ext. intros. apply minus_mixed; auto.
Qed.
End Fit.

(** *** with acceleration: multi-task Lasso, predictions agree up to the tolerances *)
Lemma stationary_mt_rot n p T T' Q a X Y Y' W eps : (1 <= n)%nat -> isometry T T' Q -> 0 < a -> (forall i t, (i < n)%nat -> (t < T')%nat -> Y' i t = mixed T Y Q i t) ->
  stationary_mt eps (quad_loss_mt n T Y) p T X (penT (MtLassoPen a)) W -> stationary_mt eps (quad_loss_mt n T' Y') p T' X (penT (MtLassoPen a)) (mixed T W Q).
Proof.
  intros Hn HQ Ha HY. rewrite !(mt_lasso_stationary_iff n p Hn) by auto. intros H j Hj. specialize (H j Hj).
  assert (RS := rsimT n p T T' Q Hn HQ (MtLassoPen a) X X Y Y' Ha (fun _ _ _ _ => eq_refl) HY).
  replace (tab T' (mixed T W Q j)) with (rot T T' Q (tab T (W j))) by (rewrite rot_tab; reflexivity).
  replace (tab T' (gq n X Y' (lin_mt p X (mixed T W Q)) j)) with (rot T T' Q (tab T (gq n X Y (lin_mt p X W) j))).
  - change (r_l21_score a) with (distT (MtLassoPen a)) in *. rewrite distT_rot by (auto; apply tab_length). auto.
  - rewrite rot_tab. apply tab_ext. intros t Ht. symmetry. apply (rs_g _ _ _ RS (lin_mt p X W)); auto. intros i t0 Hi Ht0. cbn [probT mtP pT] in *. unfold lin_mt, mixed.
    rewrite (Sum_ext p _ (fun j => Sum T (fun u => X i j * W j u * Q u t0))) by (intros; rewrite <- Sum_scal; apply Sum_ext; intros; ring).
    rewrite Sum_swap. apply Sum_ext. intros u _. rewrite Sum_scal_r. auto.
Qed.
Lemma lin_mixed p T X W Q i t : lin_mt p X (mixed T W Q) i t = mixed T (lin_mt p X W) Q i t.
Proof.
  unfold lin_mt, mixed. rewrite (Sum_ext p _ (fun j => Sum T (fun u => X i j * W j u * Q u t))) by (intros; rewrite <- Sum_scal; apply Sum_ext; intros; ring).
  rewrite Sum_swap. apply Sum_ext. intros u _. rewrite Sum_scal_r. auto.
Qed.
Lemma mixed_fits_mt srt srt' (VS : valid_sort xops srt) (VS' : valid_sort xops srt') n p T T' Q X Y Y' a s s' fit fit' t1 t2 : (1 <= n)%nat -> isometry T T' Q -> 0 < a ->
  multi_fit srt n p T X Y (MtLassoPen a) s fit -> multi_fit srt' n p T' X Y' (MtLassoPen a) s' fit' -> accepted fit -> accepted fit' ->
  patient p T s t1 -> patient p T' s' t2 -> (forall i t, (i < n)%nat -> (t < T')%nat -> Y' i t = mixed T Y Q i t) ->
  exists N W V, (forall m, (N <= m)%nat -> fit m = Ret (Ok (xm p T W)) /\ fit' m = Ret (Ok (xm p T' V))) /\
    Sum n (fun i => Sum T' (fun t => (mixed T (lin_mt p X W) Q i t - lin_mt p X V i t) ^ 2)) / INR n <= (t1 + t2) * (Sum n (fun i => Sum T (fun t => Y i t ^ 2)) / INR n / a).
Proof.
  intros Hn HQ Ha HF HF' Hacc Hacc' (Et & Ht & A1 & A2 & A3 & A4) (Et' & Ht' & B1 & B2 & B3 & B4) HY.
  destruct (c27_multi srt VS n p Hn T X Y a s fit HF t1 Hacc Et Ht A1 A2 A3 A4) as (N & W & HW & Hall).
  destruct (c27_multi srt' VS' n p Hn T' X Y' a s' fit' HF' t2 Hacc' Et' Ht' B1 B2 B3 B4) as (N' & V & HV & Hall').
  exists (Nat.max N N'), W, V. split; [intros m Hm; split; [apply Hall|apply Hall']; lia|].
  destruct (fit_size_mt srt VS n p T X Y _ s fit a N W Hn HF eq_refl Ha (Hall N (le_n _))) as [R1 S1].
  destruct (fit_size_mt srt' VS' n p T' X Y' _ s' fit' a N' V Hn HF' eq_refl Ha (Hall' N' (le_n _))) as [_ S2].
  pose proof (agree_mt (MtLassoPen a) n p T' _ Y' t1 t2 _ V Hn R1 I (stationary_mt_rot n p T T' Q a X Y Y' W t1 Hn HQ Ha HY HW) HV) as G. cbn [modulus_mt] in G.
  rewrite (Sum_ext n (fun i => Sum T' (fun t => (lin_mt p X (mixed T W Q) i t - lin_mt p X V i t) ^ 2))
      (fun i => Sum T' (fun t => (mixed T (lin_mt p X W) Q i t - lin_mt p X V i t) ^ 2))) in G by (intros; apply Sum_ext; intros; rewrite lin_mixed; auto).
  apply Rle_trans with ((t1 + t2) * gap_mt p T' (mixed T W Q) V); [unfold gap_mt; lra|]. apply Rmult_le_compat_l; [lra|]. pose proof (INR_npos n Hn).
  assert (EY : Sum n (fun i => Sum T' (fun t => Y' i t ^ 2)) = Sum n (fun i => Sum T (fun t => Y i t ^ 2))).
  { apply Sum_ext. intros i Hi. rewrite (Sum_ext T' _ (fun t => Sum T (fun u => Y i u * Q u t) * Sum T (fun u => Y i u * Q u t))) by (intros; rewrite HY by auto; unfold mixed; ring).
    rewrite rot_dot by auto. apply Sum_ext. intros. ring. }
  rewrite EY in S2.
  set (L := Sum n (fun i => Sum T (fun t => Y i t ^ 2))) in *. replace (L / INR n / a) with (L / (2 * INR n) / a + L / (2 * INR n) / a) by (field; lra).
  apply gap_bound_mt; auto.
  rewrite (Sum_ext p _ (fun j => norm2 (map (W j) (seq 0 T)))); auto. intros j Hj. change (map (mixed T W Q j) (seq 0 T')) with (tab T' (mixed T W Q j)). change (map (W j) (seq 0 T)) with (tab T (W j)).
  replace (tab T' (mixed T W Q j)) with (rot T T' Q (tab T (W j))) by (rewrite rot_tab; reflexivity). apply rot_norm; auto. apply tab_length.
Qed.
