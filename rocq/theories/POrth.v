(** Runs on orthogonal designs: one pass over the features reaches the minimiser, no extrapolation is
    ever accepted, and the returned coefficients have a closed form. *)
From Coq Require Import List ZArith Bool Arith Reals Lra Lia.
From Verif Require Import Ops Arr MUtils MDatasets MDatafits MDatafitsMT MPenalties MBlockPenalties MCd MBcd MHyper MEstimators XR SpecPen VecR PBase RSum PData PLin PProx PProxBlock SpecLin SpecData PDatafit PCalc PDataProps SpecSolve PLaws PRef PRefCD PRefPen PSim PFit PSubdiff PSubdiffBlock PDescent PConv PTheory SpecOpt PFitOpt PSymProps SpecNull PPenVal PNullFit SpecOrth.
Import ListNotations.
Open Scope R_scope.

Section Orth.
Variables (P : problem) (okstep : R -> Prop) (c : R -> R) (srt : list xr -> list nat) (b : nat -> nat -> R).
Local Notation p := (pp P). Local Notation T := (pT P). Local Notation n := (pn P). Local Notation X := (pX P).
Hypotheses (VS : valid_sort xops srt) (DT : data_theory P) (PT : pen_theory T (pprox P) (ppv P) okstep c)
  (HL : forall j, (j < p)%nat -> pL P j <> 0 -> okstep (1 / pL P j))
  (OG : forall st j t, fitted P st -> (j < p)%nat -> (t < T)%nat -> pg P (snd st) j t = pL P j * fst st j t - b j t).

Definition best (j : nat) : list R := pprox P (tab T (fun t => b j t / pL P j)) (1 / pL P j).
Definition canon (st : rmat * rmat) : Prop :=
  fitted P st /\ dead_zero P (fst st) /\ forall j, (j < p)%nat -> live P j -> row P (fst st) j = best j.

Lemma step_best st j : (j < p)%nat -> live P j -> fitted P st -> row P (fst (rstep P st j)) j = best j.
Proof.
  intros Hj Hl HF. destruct st as [W Z]. rewrite (step_row P okstep c PT HL) by auto. unfold rupd, best. f_equal. apply tab_ext. intros t Ht.
  pose proof (OG (W, Z) j t HF Hj Ht) as G. cbn [fst snd] in G. rewrite G. unfold live in Hl. field. auto.
Qed.
Lemma sweep_rows ws : (forall j, In j ws -> (j < p)%nat) -> forall st, fitted P st ->
  forall j, (j < p)%nat -> live P j -> In j ws \/ row P (fst st) j = best j -> row P (fst (fold_left (rstep P) ws st)) j = best j.
Proof.
  induction ws as [|i ws IH]; intros Hws st HF j Hj Hl H; cbn [fold_left]; [destruct H as [[]|H]; auto|].
  apply IH; auto; [intros; apply Hws; right; auto|apply (step_fitted P st i); auto; apply Hws; left; auto|].
  destruct (Nat.eq_dec j i) as [->|Ne].
  - right. apply step_best; auto.
  - destruct H as [[->|H]|H]; [contradiction|left; auto|right]. rewrite step_other_row; auto.
Qed.
Lemma sweep_canon ws st : ws_ok P ws -> (forall j, (j < p)%nat -> In j ws) -> fitted P st -> dead_zero P (fst st) -> canon (fold_left (rstep P) ws st).
Proof.
  intros [ND Hws] Hall HF HD. split; [apply steps_fitted; auto|]. split; [|intros j Hj Hl; apply sweep_rows; auto].
  intros j t Hj Ht E. rewrite steps_dead by auto. auto.
Qed.
Lemma canon_rows st st' : canon st -> canon st' -> forall j, (j < p)%nat -> row P (fst st) j = row P (fst st') j.
Proof.
  intros (_ & D & H) (_ & D' & H') j Hj. destruct (Req_dec (pL P j) 0) as [E|E]; [|rewrite H, H'; auto].
  rewrite (dead_row P), (dead_row P); auto.
Qed.
Lemma canon_obj st st' : canon st -> canon st' -> obj P st = obj P st'.
Proof.
  intros C C'. pose proof (canon_rows _ _ C C') as HR. unfold obj, robj. f_equal.
  - apply (da_f P DT). intros i t Hi Ht. destruct C as (F & _), C' as (F' & _). rewrite F, F' by auto. unfold lin_mt. apply Sum_ext. intros j Hj. f_equal.
    specialize (HR j Hj). apply (f_equal (fun l => nth t l 0)) in HR. unfold row in HR. rewrite !nth_tab in HR by auto. exact HR.
  - apply Sum_ext. intros j Hj. rewrite HR; auto.
Qed.
(** nothing is better than a canonical state *)
Lemma canon_min ws st st' : ws_ok P ws -> (forall j, (j < p)%nat -> In j ws) -> canon st -> fitted P st' -> dead_zero P (fst st') -> obj P st <= obj P st'.
Proof.
  intros Hok Hall C F D. rewrite (canon_obj st _ C (sweep_canon ws st' Hok Hall F D)). apply (steps_desc P okstep c DT PT HL ws (proj2 Hok)).
Qed.
Lemma inner_canon tol kmax K acc ws : ws_ok P ws -> (forall j, (j < p)%nat -> In j ws) -> forall es W Z H st, es <> [] -> fitted P (W, Z) -> dead_zero P W -> hist_zero P ws H ->
  rinner P tol kmax K acc ws es W Z H = Ret st -> canon st.
Proof.
  intros Hok Hall. induction es as [|e es IH]; intros W Z H st Hne HF HD HH E; [contradiction|].
  cbn [rinner] in E. assert (EC := fun st H' => epoch_cases P W Z H ws e K acc st H' Hok).
  assert (C1 := sweep_canon ws (W, Z) Hok Hall HF HD). destruct (fold_left (rstep P) ws (W, Z)) as [W1 Z1].
  destruct (if acc then _ else _) as [[[W2 Z2] H2]|] eqn:E2; cbn [bind] in E; [|discriminate].
  assert (C2 : canon (W2, Z2)).
  { destruct acc; [|injection E2 as <- <- <-; auto]. destruct C1 as (F1 & D1 & R1). destruct (accel_cases P _ _ _ _ _ _ _ _ (proj1 Hok) (proj2 Hok) E2) as [_ [E3|(_ & Ho & Hf & _)]].
    - injection E3 as -> ->. split; auto.
    - exfalso. pose proof (canon_min ws (W1, Z1) (W2, Z2) Hok Hall (conj F1 (conj D1 R1)) Hf (proj1 (accel_dead P _ _ _ _ _ _ _ _ (proj1 Hok) (proj2 Hok) E2 D1 HH))). lra. }
  destruct (EC _ _ eq_refl) as (_ & _ & _ & _ & DZ). destruct (DZ HD HH) as [D2 HH2].
  assert (HR : st = (W2, Z2) \/ rinner P tol kmax K acc ws es W2 Z2 H2 = Ret st).
  { cbv zeta in E. destruct (_ && _); auto. destruct (_ =? _)%nat; [destruct (xle _ _)|destruct (xlt _ _)]; auto; injection E as <-; auto. }
  destruct HR as [->|HR]; auto. destruct es as [|e' es]; [injection HR as <-; auto|]. apply (IH W2 Z2 H2 st); auto; [discriminate|apply C2].
Qed.
Lemma all_in ws : ws_ok P ws -> (p <= length ws)%nat -> forall j, (j < p)%nat -> In j ws.
Proof.
  intros [ND Hws] Hlen j Hj. apply (NoDup_length_incl (l := ws) (l' := seq 0 p)); [auto|rewrite seq_length; auto| |apply in_seq; lia].
  intros i Hi. apply in_seq. specialize (Hws i Hi). lia.
Qed.
Lemma outer_canon tol K acc me : (1 <= me)%nat -> accel_safe acc K (p * T) me -> forall it W Z, fitted P (W, Z) -> dead_zero P W ->
  exists st, router P srt (Fin tol) K acc p me (S it) W Z = Ret st /\ ((done P tol (W, Z) /\ st = (W, Z)) \/ (~ done P tol (W, Z) /\ canon st)).
Proof.
  intros Hme Hsafe. assert (H1 : forall W Z, fitted P (W, Z) -> dead_zero P W -> ~ done P tol (W, Z) ->
    exists st', canon st' /\ forall m, router P srt (Fin tol) K acc p me (S m) W Z = router P srt (Fin tol) K acc p me m (fst st') (snd st')).
  { intros W Z F D Nd. destruct (Nat.eq_dec p 0) as [E0|E0]; [exfalso; apply Nd; intros j Hj; lia|].
    destruct (sel_all P srt VS W Z p ltac:(lia) ltac:(lia)) as (ws & Es & Hok & Hlen & _).
    pose proof (all_in ws Hok Hlen) as Hall.
    destruct (rinner_ret P (Fin tol) (rkmax P W Z (seq 0 p)) K acc ws (seq 0 me) W Z (fun _ _ => 0)) as (st' & Ei).
    { intros Ha. destruct Hsafe as [Q|[Q|Q]]; [congruence|left|right].
      - split; [lia|]. apply Nat.le_trans with (p * T)%nat; [lia|]. apply Nat.mul_le_mono_r. auto.
      - intros e He. apply in_seq in He. rewrite Nat.mod_small; lia. }
    exists st'. split.
    - apply (inner_canon (Fin tol) (rkmax P W Z (seq 0 p)) K acc ws Hok Hall (seq 0 me) W Z (fun _ _ => 0) st'); auto; [destruct me; [lia|discriminate]|intros a k t _ _ _; reflexivity].
    - intros m. cbn [router]. destruct (xle _ _) eqn:Ex; [exfalso; apply Nd; intros j Hj; apply (proj1 (kmax_le P W Z tol) Ex j Hj)|].
      rewrite Es. cbn [bind]. rewrite Ei. cbn [bind]. destruct st'; reflexivity. }
  assert (H2 : forall it st, canon st -> exists st', router P srt (Fin tol) K acc p me it (fst st) (snd st) = Ret st' /\ canon st').
  { induction it as [|it IH]; intros st C; [exists st; split; auto; destruct st; reflexivity|].
    destruct (done_dec P tol st) as [Hd|Nd]; [exists st; split; auto; apply done_stops; auto|]. destruct st as [W Z]. cbn [fst snd] in *.
    destruct (H1 W Z) as (st' & C' & E); auto; [apply C|apply C|]. rewrite E. apply IH; auto. }
  intros it W Z F D. destruct (done_dec P tol (W, Z)) as [Hd|Nd].
  - exists (W, Z). split; [apply (done_stops P srt tol K acc p me (W, Z)); auto|left; auto].
  - destruct (H1 W Z F D Nd) as (st' & C' & E). rewrite E. destruct (H2 it st' C') as (st & Es & C). exists st. split; auto.
Qed.
Lemma solve_canon tol K acc ws0 me : (p <= ws0)%nat -> (1 <= me)%nat -> accel_safe acc K (p * T) me ->
  let st0 := (fun _ _ => 0, fun _ _ => 0) in
  (done P tol st0 /\ forall m, rsolve P srt (Fin tol) K acc ws0 me m = Ret st0) \/
  (~ done P tol st0 /\ forall m, (1 <= m)%nat -> exists st, rsolve P srt (Fin tol) K acc ws0 me m = Ret st /\ canon st).
Proof.
  intros Hw Hme Hsafe st0. unfold rsolve. replace (Nat.min ws0 p) with p by lia. destruct (done_dec P tol st0) as [Hd|Nd].
  - left. split; auto. intros m. apply (done_stops P srt tol K acc p me st0); auto.
  - right. split; auto. intros m Hm. destruct m as [|m]; [lia|]. destruct (outer_canon tol K acc me Hme Hsafe m (fun _ _ => 0) (fun _ _ => 0)) as (st & E & [[Hd _]|[_ C]]).
    + apply start_fitted.
    + intros ? ? ? ? ?. reflexivity.
    + contradiction.
    + exists st. auto.
Qed.
End Orth.

(** *** closed forms of the proximal operators *)
Lemma prox1_form k L rho : pen1_range k -> 0 < L -> okstep1 k (1 / L) -> prox1 k (rho / L) (1 / L) = rho / Rabs rho * shrunk k L (Rabs rho).
Proof.
  intros Hr HL Hs.
  assert (HS : forall a, 0 <= a -> rsoft (rho / L) (a * (1 / L)) = rho / Rabs rho * (Rmax 0 (Rabs rho - a) / L)).
  { intros a Ha. unfold rsoft. assert (H1 : a * (1 / L) < rho / L <-> a < rho).
    { split; intros H; [apply Rmult_lt_reg_r with (/ L); [apply Rinv_0_lt_compat; auto|]|]; unfold Rdiv in *; [lra|]. rewrite Rmult_1_l. apply Rmult_lt_compat_r; auto. apply Rinv_0_lt_compat; auto. }
    assert (H2 : rho / L < - (a * (1 / L)) <-> rho < - a).
    { split; intros H; [apply Rmult_lt_reg_r with (/ L); [apply Rinv_0_lt_compat; auto|]|]; unfold Rdiv in *; [lra|]. rewrite Rmult_1_l. rewrite Ropp_mult_distr_l. apply Rmult_lt_compat_r; auto. apply Rinv_0_lt_compat; auto. }
    destruct (Rltb _ _) eqn:E1; rb.
    - apply H1 in E1. rewrite Rabs_right by lra. rewrite Rmax_right by lra. field. split; lra.
    - destruct (Rltb (rho / L) _) eqn:E2; rb.
      + apply H2 in E2. rewrite Rabs_left by lra. rewrite Rmax_right by lra. field. split; lra.
      + assert (Rabs rho <= a). { apply Rabs_le. split; [|]; apply Rnot_lt_le; intros Hc; [apply H2 in Hc|apply H1 in Hc]; lra. }
        rewrite Rmax_left by lra. unfold Rdiv. ring. }
  destruct k as [a|a q|a g]; cbn [prox1 shrunk pen1_range okstep1] in *.
  - apply HS; auto.
  - unfold enet_prox. replace (q * a * (1 / L)) with (a * q * (1 / L)) by ring. rewrite HS by (apply Rmult_le_pos; lra).
    assert (0 <= a * (1 - q)) by (apply Rmult_le_pos; lra). set (S := rho / Rabs rho). set (M := Rmax 0 _). field. repeat split; nra.
  - destruct Hr as [Ha Hg], Hs as [_ Hs].
    assert (HgL : 1 <= g * L). { apply Rmult_le_reg_r with (1 / L); [apply Rdiv_lt_0_compat; lra|]. replace (g * L * (1 / L)) with g by (field; lra). lra. }
    unfold rmcp_prox. replace (Rabs (rho / L)) with (Rabs rho * / L) by (unfold Rdiv; rewrite Rabs_mult, (Rabs_right (/ L)); auto; left; apply Rinv_0_lt_compat; auto).
    replace (g / (1 / L) * (a * (1 / L))) with (a * g) by (field; lra).
    pose proof (Rinv_0_lt_compat L HL) as HiL.
    destruct (Rleb _ _) eqn:E1; rb.
    + assert (Rabs rho <= a) by (apply Rmult_le_reg_r with (/ L); auto; unfold Rdiv in E1; lra).
      destruct (Rle_dec _ _) as [|Hno]; [rewrite Rmax_left by lra; unfold Rdiv; ring|]. exfalso. apply Hno. nra.
    + assert (Hra : a < Rabs rho) by (apply Rmult_lt_reg_r with (/ L); auto; unfold Rdiv in E1; lra).
      assert (Hr0 : rho <> 0) by (intros ->; rewrite Rabs_R0 in Hra; lra).
      destruct (Rltb (a * g) _) eqn:E2; rb.
      * destruct (Rle_dec _ _) as [Hc|Hno].
        -- exfalso. assert (Rabs rho * / L <= a * g); [|lra]. apply Rmult_le_reg_r with L; auto. rewrite Rmult_assoc, Rinv_l by lra. lra.
        -- unfold Rdiv. rewrite (Rmult_assoc rho), <- (Rmult_assoc (/ Rabs rho)), Rinv_l, Rmult_1_l; auto. apply Rabs_no_R0; auto.
      * destruct (Rle_dec _ _) as [Hc|Hno].
        2:{ exfalso. apply Hno. apply Rmult_le_reg_r with (/ L); auto. rewrite Rmult_assoc, Rinv_r by lra. lra. }
        rewrite Rmax_right by lra. assert (HgL' : 1 < g * L). { destruct (Rle_lt_or_eq_dec _ _ HgL) as [|Eq]; auto. exfalso. rewrite Rmult_assoc, <- Eq in Hc. lra. }
        assert (Hne : L - 1 / g <> 0). { intros Hz. assert (g * L = 1) by (apply Rmult_eq_reg_r with (/ g); [|apply Rinv_neq_0_compat; lra]; rewrite (Rmult_comm g), Rmult_assoc, Rinv_r by lra; unfold Rdiv in Hz; lra). lra. }
        assert (Hne' : g * L - 1 <> 0) by lra. destruct (Rltb (rho / L) 0) eqn:E3; rb; unfold Rdiv in E3.
        -- assert (rho < 0) by (apply Rmult_lt_reg_r with (/ L); auto; lra). rewrite Rabs_left by auto. field. repeat split; lra.
        -- assert (0 <= rho) by (apply Rmult_le_reg_r with (/ L); auto; lra). rewrite Rabs_right by lra. field. repeat split; lra.
Qed.
Lemma scale_zeros v : vscale 0 v = repeat 0 (length v).
Proof. unfold vscale. induction v; simpl; f_equal; auto. ring. Qed.
Lemma proxT_radial k v s : penT_range k -> 0 < s -> proxT k v s = vscale (prox1 (of_norm k) (norm2 v) s / norm2 v) v.
Proof.
  intros Hr Hs. pose proof (norm2_pos v) as Hp.
  assert (HS : forall t, 0 < t -> rbst v t = vscale (rsoft (norm2 v) t / norm2 v) v).
  { intros t Ht. unfold rbst, rsoft. destruct (Rltb (norm2 v) t) eqn:E; rb.
    - rewrite (proj2 (Rltb_false t (norm2 v))) by lra. rewrite (proj2 (Rltb_false (norm2 v) (- t))) by lra. unfold Rdiv. rewrite Rmult_0_l. rewrite scale_zeros. auto.
    - f_equal. destruct (Rltb t (norm2 v)) eqn:E2; rb; [field; lra|]. rewrite (proj2 (Rltb_false (norm2 v) (- t))) by lra. replace t with (norm2 v) by lra. field. lra. }
  destruct k as [a|a q|a g]; cbn [proxT penT_range of_norm prox1 okstepT] in *; unfold bprox; cbn [bpen_prox l21_penalty bl1l2_penalty bmcp_penalty].
  - unfold l21_prox. cbn [l21_alpha fmul xops xmul]. rewrite bst_fin by (right; nra). rewrite toR_Fin. apply HS. nra.
  - destruct Hr as (Ha & Hq & Haq). unfold bl1l2_prox. cbn [bl_alpha bl_l21_ratio]. change (fmul xops (fmul xops (Fin a) (Fin s)) (Fin q)) with (Fin (a * s * q)).
    assert (Hc0 : 0 <= s * (1 - q) * a) by (apply Rmult_le_pos; nra). assert (Ht : 0 < a * s * q) by nra.
    rewrite bst_fin by auto. rewrite !map_map. rewrite HS by auto. unfold vscale. rewrite map_map. apply map_ext. intros x.
    cbn [fadd fsub fmul fdiv f1 xops xsub xmul xadd]. rewrite xdiv_fin by lra. cbn [toR]. unfold enet_prox. replace (q * a * s) with (a * s * q) by ring. unfold Rdiv. ring.
  - destruct Hr as [Ha Hg]. unfold bmcp_prox, rownorm. cbn [ndot fsqrt xops]. cbv zeta. rewrite xdot_dotp, xsqrt_norm. cbn [bmcp_alpha bmcp_gamma fmul fdiv xops].
    rewrite xdiv_fin by lra. cbn [fle flt fmul xops xmul xle xlt]. unfold rmcp_prox. rewrite (Rabs_right (norm2 v)) by lra.
    destruct (Rleb (norm2 v) (a * s)) eqn:E1; [|destruct (Rltb (g / s * (a * s)) (norm2 v)) eqn:E2]; rb.
    + unfold Rdiv. rewrite Rmult_0_l, scale_zeros. unfold vzeros. rewrite map_length, map_repeat. reflexivity.
    + assert (norm2 v <> 0) by (assert (0 <= a * s) by nra; lra). rewrite toR_Fin. unfold Rdiv. rewrite Rinv_r by auto. unfold vscale. rewrite <- (map_id v) at 1. apply map_ext. intros. ring.
    + assert (Hn0 : norm2 v <> 0) by (assert (0 <= a * s) by nra; lra). replace (g / s * (a * s)) with (g * a) in E2 by (field; lra).
      assert (Hlt : s < g). { destruct (Rle_lt_dec g s) as [Hle|]; auto. nra. }
      assert (Hne : 1 - 1 / (g / s) <> 0).
      { replace (1 - 1 / (g / s)) with ((g - s) / g) by (field; lra). apply Rgt_not_eq. apply Rmult_lt_0_compat; [lra|apply Rinv_0_lt_compat; lra]. }
      rewrite (proj2 (Rltb_false (norm2 v) 0)) by lra. unfold vscale. rewrite !map_map. apply map_ext. intros x.
      cbn [f1 fsub fdiv fmul xops]. rewrite xdiv_fin by auto. cbn [xsub xmul].
      rewrite xdiv_fin by (apply Rgt_not_eq, Rdiv_lt_0_compat; lra). cbn [xsub]. rewrite xdiv_fin by auto. cbn [toR]. field. repeat split; try lra.
Qed.
Lemma proxT_form k T L rho t : penT_range k -> 0 < L -> okstepT k (1 / L) -> (t < T)%nat ->
  nth t (proxT k (tab T (fun t => rho t / L)) (1 / L)) 0 = rho t / norm2 (tab T rho) * shrunk (of_norm k) L (norm2 (tab T rho)).
Proof.
  intros Hr HL Ho Ht. assert (Hs : 0 < 1 / L) by (apply Rdiv_lt_0_compat; lra). rewrite proxT_radial by auto.
  assert (EN : norm2 (tab T (fun t => rho t / L)) = norm2 (tab T rho) / L).
  { replace (tab T (fun t => rho t / L)) with (vscale (/ L) (tab T rho)).
    - rewrite norm2_scale, Rabs_right by (left; apply Rinv_0_lt_compat; auto). unfold Rdiv. ring.
    - unfold vscale. rewrite map_tab. apply tab_ext. intros. unfold Rdiv. ring. }
  rewrite EN. rewrite prox1_form; auto.
  - pose proof (norm2_pos (tab T rho)) as Hp. rewrite (Rabs_right (norm2 _)) by lra. set (N := norm2 (tab T rho)) in *. unfold vscale. rewrite map_tab, nth_tab by auto.
    destruct (Req_dec N 0) as [E|E]; [rewrite E; unfold Rdiv; rewrite !Rmult_0_l, Rinv_0; ring|]. field. split; lra.
  - destruct k; cbn [of_norm pen1_range penT_range] in *; lra.
  - destruct k; cbn [of_norm okstep1 okstepT] in *; auto.
Qed.

(** *** the data of squared-loss problems *)
Section Data.
Variables (n p T : nat) (X Y : rmat) (Hn : (1 <= n)%nat) (HO : orthogonal n p X).
Lemma orth_grad W Z j t : (forall i, (i < n)%nat -> Z i t = lin_mt p X W i t) -> (j < p)%nat ->
  gq n X Y Z j t = Lq n X j * W j t - Sum n (fun i => X i j * Y i t) / INR n.
Proof.
  intros HF Hj. pose proof (INR_npos n Hn) as HN. unfold gq, Lq.
  replace (Sum n (fun i => X i j * Z i t)) with (Sum n (fun i => X i j * X i j) * W j t); [field; lra|].
  rewrite (Sum_ext n (fun i => X i j * Z i t) (fun i => Sum p (fun k => X i j * X i k * W k t))).
  - rewrite Sum_swap. rewrite (Sum_single p _ j Hj); [symmetry; apply Sum_scal_r|]. intros k Hk Hne. rewrite Sum_scal_r, HO by auto. ring.
  - intros i Hi. rewrite HF by auto. unfold lin_mt. rewrite <- Sum_scal. apply Sum_ext. intros. ring.
Qed.
End Data.

Section Fit.
Variables (srt : list xr -> list nat) (VS : valid_sort xops srt) (n p : nat) (Hn : (1 <= n)%nat).

(** coordinates of zero columns may be set to zero *)
Lemma drop_dead X y k w : pen1_range k -> objective (loss1 Squared n y) p X (pen1 k) (fun j => if Reqb (Lq n X j) 0 then 0 else w j) <= objective (loss1 Squared n y) p X (pen1 k) w.
Proof.
  intros Hr. unfold objective. apply Rplus_le_compat.
  - right. cbn [loss1]. unfold quad_loss. f_equal. apply Sum_ext. intros i Hi. do 2 f_equal. unfold lin. apply Sum_ext. intros j Hj.
    destruct (Reqb (Lq n X j) 0) eqn:E; auto. rb. rewrite (Lq_zero n X Hn j E i Hi). ring.
  - apply Sum_le. intros j Hj. destruct (Reqb _ _); [|lra]. pose proof (pt_nonneg _ _ _ _ _ (pen1_theory k Hr) [w j]) as H1. pose proof (pt_zero _ _ _ _ _ (pen1_theory k Hr)) as H2.
    unfold lpv in H1, H2. cbn [nth repeat] in H1, H2. rewrite H2. auto.
Qed.
Lemma best1 X y k j : pen1_range k -> okstep1 k (1 / Lq n X j) -> Lq n X j <> 0 ->
  best (prob1 Squared k n p X y) (fun j _ => Sum n (fun i => X i j * y i) / INR n) j = [closed_form k n X y j].
Proof.
  intros Hr Ho Hl. pose proof (Lq_nonneg n X j Hn). unfold best. cbn [prob1 quadP single_problem pT pL pprox]. unfold tab. cbn [seq map].
  rewrite prox1_form by (auto; lra). unfold closed_form. cbv zeta. rewrite <- (curv_Lq n X j). reflexivity.
Qed.
Lemma dead_closed X y k j : (j < p)%nat -> Lq n X j = 0 -> closed_form k n X y j = 0.
Proof.
  intros Hj E. unfold closed_form. cbv zeta. rewrite (Sum_zero n (fun i => X i j * y i)) by (intros; rewrite (Lq_zero n X Hn j E) by auto; ring).
  unfold Rdiv. rewrite !Rmult_0_l. auto.
Qed.
Lemma orth_single X y k s fit tol : single_fit srt n p X y Squared k s fit -> accepted fit -> s_tolerance s = Fin tol -> orthogonal n p X -> steps_ok Rle k Squared n p X ->
  (p <= s_ws_start_size s)%nat -> (1 <= s_max_epochs s)%nat -> accel_safe (s_use_acceleration s) (s_K s) p (s_max_epochs s) ->
  (stationary tol (loss1 Squared n y) p X (pen1 k) (fun _ => 0) /\ forall m, fit m = Ret (Ok (xv p (fun _ => 0)))) \/
  (~ stationary tol (loss1 Squared n y) p X (pen1 k) (fun _ => 0) /\ forall m, (1 <= m)%nat -> fit m = Ret (Ok (xv p (closed_form k n X y)))).
Proof.
  intros HF Hacc Et HO HS Hw Hme Hsafe. destruct (single_run srt VS n p Hn X y Squared k s fit HF) as [(e & He)|[Hr Hgo]]; [exfalso; apply (Hacc 0%nat e); auto|].
  set (PB := prob1 Squared k n p X y).
  assert (OG : forall st j t, fitted PB st -> (j < pp PB)%nat -> (t < pT PB)%nat -> pg PB (snd st) j t = pL PB j * fst st j t - Sum n (fun i => X i j * y i) / INR n).
  { intros st j t F Hj Ht. apply (orth_grad n p X (fun i _ => y i) Hn HO (fst st) (snd st) j t); auto. }
  assert (HL := prob1_steps n p Hn Squared k X y HS).
  destruct (solve_canon PB (okstep1 k) (c1 k) srt (fun j _ => Sum n (fun i => X i j * y i) / INR n) VS (prob1_data n p Hn Squared k X y I) (prob1_pen n p Squared k X y Hr) HL OG
    tol (s_K s) (s_use_acceleration s) (s_ws_start_size s) (s_max_epochs s) Hw Hme) as [[Hd Hall]|[Nd Hall]].
  - cbn [PB prob1 quadP single_problem pp pT]. rewrite Nat.mul_1_r. auto.
  - left. split; [apply (done_stationary n p Hn Squared k X y (fun _ _ => 0) (fun _ _ => 0)); auto; apply start_fitted|].
    intros m. rewrite Hgo. unfold go1, run1. fold PB. rewrite Et, Hall. reflexivity.
  - right. split; [intros Hst; apply Nd; apply (done_stationary n p Hn Squared k X y (fun _ _ => 0) (fun _ _ => 0)); auto; apply start_fitted|].
    intros m Hm. rewrite Hgo. unfold go1, run1. fold PB. rewrite Et. destruct (Hall m Hm) as (st & -> & _ & D & R). cbn [bind ok]. unfold ok. cbn [bind]. f_equal. f_equal.
    apply xv_ext. intros j Hj. destruct (Req_dec (Lq n X j) 0) as [E|E].
    + rewrite (dead_closed X y k j Hj E). apply D; auto.
    + pose proof (eq_trans (R j Hj E) (best1 X y k j Hr (HL j Hj E) E)) as R'. injection R'. auto.
Qed.
(** the closed form minimises the objective, also for the non-convex penalty *)
Lemma orth_minimises X y k : pen1_range k -> orthogonal n p X -> steps_ok Rle k Squared n p X ->
  forall w, objective (loss1 Squared n y) p X (pen1 k) (closed_form k n X y) <= objective (loss1 Squared n y) p X (pen1 k) w.
Proof using VS Hn.
  intros Hr HO HS w. apply Rle_trans with (2 := drop_dead X y k w Hr). set (PB := prob1 Squared k n p X y).
  assert (OG : forall st j t, fitted PB st -> (j < pp PB)%nat -> (t < pT PB)%nat -> pg PB (snd st) j t = pL PB j * fst st j t - Sum n (fun i => X i j * y i) / INR n).
  { intros st j t F Hj Ht. apply (orth_grad n p X (fun i _ => y i) Hn HO (fst st) (snd st) j t); auto. }
  assert (HL := prob1_steps n p Hn Squared k X y HS). set (v := fun j => if Reqb (Lq n X j) 0 then 0 else w j). set (W1 := fun j (_ : nat) => closed_form k n X y j). set (W2 := fun j (_ : nat) => v j).
  assert (F : forall W, fitted PB (W, lin_mt p X W)) by (intros W i t _ _; reflexivity).
  pose proof (prob1_obj n p Squared k X y W1 _ (F W1)) as E1. pose proof (prob1_obj n p Squared k X y W2 _ (F W2)) as E2.
  apply Rle_trans with (1 := Req_le _ _ (eq_sym E1)). apply Rle_trans with (2 := Req_le _ _ E2).
  refine (canon_min PB (okstep1 k) (c1 k) (fun j _ => Sum n (fun i => X i j * y i) / INR n) (prob1_data n p Hn Squared k X y I) (prob1_pen n p Squared k X y Hr) HL OG (seq 0 p) _ _ _ _ _ _ _).
  - split; [apply seq_NoDup|]. intros j Hj. apply in_seq in Hj. cbn [PB prob1 quadP single_problem pp]. lia.
  - intros j Hj. apply in_seq. cbn [PB prob1 quadP single_problem pp] in Hj. lia.
  - split; [apply F|]. split.
    + intros j t Hj Ht E. apply dead_closed; auto.
    + intros j Hj Hl. symmetry. exact (best1 X y k j Hr (HL j Hj Hl) Hl).
  - apply F.
  - intros j t Hj Ht E. cbn [fst]. unfold W2, v. change (pL PB j) with (Lq n X j) in E. rewrite E, Reqb_refl. auto.
Qed.

(** *** several tasks *)
Lemma drop_dead_mt T X Y k W : penT_range k -> objective_mt (quad_loss_mt n T Y) p T X (penT k) (fun j t => if Reqb (Lq n X j) 0 then 0 else W j t) <= objective_mt (quad_loss_mt n T Y) p T X (penT k) W.
Proof using Hn.
  intros Hr. unfold objective_mt. apply Rplus_le_compat.
  - right. unfold quad_loss_mt. f_equal. apply Sum_ext. intros i Hi. apply Sum_ext. intros t Ht. do 2 f_equal. unfold lin_mt. apply Sum_ext. intros j Hj.
    destruct (Reqb (Lq n X j) 0) eqn:E; auto. rb. rewrite (Lq_zero n X Hn j E i Hi). ring.
  - apply Sum_le. intros j Hj. destruct (Reqb _ _); [|apply Rle_refl]. change (map (fun _ => 0) (seq 0 T)) with (tab T (fun _ => 0)). rewrite tab_zero by auto.
    rewrite (pt_zero _ _ _ _ _ (penT_theory k T Hr)). apply (pt_nonneg _ _ _ _ _ (penT_theory k T Hr)).
Qed.
Lemma bestT T X Y k j : penT_range k -> okstepT k (1 / Lq n X j) -> Lq n X j <> 0 ->
  best (probT k n p T X Y) (fun j t => Sum n (fun i => X i j * Y i t) / INR n) j = tab T (closed_form_mt k n T X Y j).
Proof using Hn.
  intros Hr Ho Hl. pose proof (Lq_nonneg n X j Hn). unfold best. cbn [probT mtP pT pL pprox].
  match goal with |- ?l = _ => transitivity (tab T (fun t => nth t l 0)) end.
  { apply tab_nth_len. apply (pt_min _ _ _ _ _ (penT_theory k T Hr)); auto. apply tab_length. }
  apply tab_ext. intros t Ht. rewrite (proxT_form k T (Lq n X j) (fun t => Sum n (fun i => X i j * Y i t) / INR n)) by (auto; lra).
  unfold closed_form_mt. cbv zeta. rewrite <- (curv_Lq n X j). reflexivity.
Qed.
Lemma dead_closed_mt T X Y k j t : (j < p)%nat -> Lq n X j = 0 -> closed_form_mt k n T X Y j t = 0.
Proof using Hn.
  intros Hj E. unfold closed_form_mt. cbv zeta. rewrite (Sum_zero n (fun i => X i j * Y i t)) by (intros; rewrite (Lq_zero n X Hn j E) by auto; ring).
  unfold Rdiv. rewrite !Rmult_0_l. auto.
Qed.
Lemma orth_multi T X Y k s fit tol : multi_fit srt n p T X Y k s fit -> accepted fit -> s_tolerance s = Fin tol -> 0 <= tol -> orthogonal n p X -> steps_ok_mt Rle k n p X ->
  (p <= s_ws_start_size s)%nat -> (1 <= s_max_epochs s)%nat -> accel_safe (s_use_acceleration s) (s_K s) (p * T) (s_max_epochs s) ->
  let small := forall j, (j < p)%nat -> zero_level k (norm2 (map (fun t => Sum n (fun i => X i j * Y i t) / INR n) (seq 0 T))) <= slope_mt k + tol in
  (small /\ forall m, fit m = Ret (Ok (xm p T (fun _ _ => 0)))) \/
  (~ small /\ forall m, (1 <= m)%nat -> fit m = Ret (Ok (xm p T (closed_form_mt k n T X Y)))).
Proof using VS Hn.
  intros HF Hacc Et Htol HO HS Hw Hme Hsafe small. destruct (multi_run srt VS n p Hn T X Y k s fit HF) as [Hr [(e & He)|Hgo]]; [exfalso; apply (Hacc 0%nat e); auto|].
  set (PB := probT k n p T X Y).
  assert (OG : forall st j t, fitted PB st -> (j < pp PB)%nat -> (t < pT PB)%nat -> pg PB (snd st) j t = pL PB j * fst st j t - Sum n (fun i => X i j * Y i t) / INR n).
  { intros st j t F Hj Ht. apply (orth_grad n p X Y Hn HO (fst st) (snd st) j t); auto. }
  assert (HL := probT_steps n p Hn k T X Y HS).
  assert (HD : done PB tol (fun _ _ => 0, fun _ _ => 0) <-> small).
  { unfold done, small. cbn [fst snd]. assert (EQ : forall j, (j < p)%nat -> rdist PB (fun _ _ => 0) (fun _ _ => 0) j = Rmax 0 (zero_level k (norm2 (map (fun t => Sum n (fun i => X i j * Y i t) / INR n) (seq 0 T))) - slope_mt k)).
    { intros j Hj. unfold PB. rewrite probT_dist; auto; [|apply start_fitted]. rewrite tab_zero by auto.
      transitivity (Rmax 0 (zero_level k (norm2 (tab T (gq n X Y (lin_mt p X (fun _ _ => 0)) j))) - slope_mt k)).
      { destruct k as [a|a r|a g]; [apply (distT_0 T (MtLassoPen a)); exact I| |apply (distT_0 T (BlockMcpPen a g)); exact I]. cbn [distT]. unfold r_bl1l2_score. rewrite norm2_0, Reqb_refl. reflexivity. }
      do 3 f_equal.
      replace (tab T (gq n X Y (lin_mt p X (fun _ _ => 0)) j)) with (vscale (-1) (map (fun t => Sum n (fun i => X i j * Y i t) / INR n) (seq 0 T))).
      - rewrite norm2_scale. rewrite Rabs_left by lra. ring.
      - unfold vscale. rewrite map_map. apply map_ext. intros t. unfold gq. rewrite (Sum_zero n (fun i => X i j * lin_mt p X (fun _ _ => 0) i t)); [unfold Rdiv; ring|].
        intros i _. unfold lin_mt. rewrite Sum_zero; [ring|]. intros. ring. }
    split; intros H j Hj; specialize (H j Hj); rewrite EQ in * by auto.
    - match type of H with Rmax 0 ?x <= _ => pose proof (Rmax_r 0 x) end. lra.
    - apply Rmax_lub; lra. }
  destruct (solve_canon PB (okstepT k) (cT k) srt (fun j t => Sum n (fun i => X i j * Y i t) / INR n) VS (quad_data n p T X Y (proxT k) (penT k) (distT k) Hn) (penT_theory k T Hr) HL OG
    tol (s_K s) (s_use_acceleration s) (s_ws_start_size s) (s_max_epochs s) Hw Hme Hsafe) as [[Hd Hall]|[Nd Hall]].
  - left. split; [apply HD; auto|]. intros m. rewrite Hgo. unfold goT, runT. fold PB. rewrite Et, Hall. reflexivity.
  - right. split; [intros Hst; apply Nd; apply HD; auto|].
    intros m Hm. rewrite Hgo. unfold goT, runT. fold PB. rewrite Et. destruct (Hall m Hm) as (st & -> & _ & D & R). cbn [bind ok]. unfold ok. cbn [bind]. f_equal. f_equal.
    apply xm_ext. intros j t Hj Ht. destruct (Req_dec (Lq n X j) 0) as [E|E].
    + rewrite (dead_closed_mt T X Y k j t Hj E). apply D; auto.
    + pose proof (eq_trans (R j Hj E) (bestT T X Y k j Hr (HL j Hj E) E)) as R'. apply (f_equal (fun l => nth t l 0)) in R'. unfold row in R'. change (pT PB) with T in R'. rewrite !nth_tab in R' by auto. auto.
Qed.
Lemma orth_minimises_mt T X Y k : penT_range k -> orthogonal n p X -> steps_ok_mt Rle k n p X ->
  forall W, objective_mt (quad_loss_mt n T Y) p T X (penT k) (closed_form_mt k n T X Y) <= objective_mt (quad_loss_mt n T Y) p T X (penT k) W.
Proof using VS Hn.
  intros Hr HO HS W. apply Rle_trans with (2 := drop_dead_mt T X Y k W Hr). set (PB := probT k n p T X Y).
  assert (OG : forall st j t, fitted PB st -> (j < pp PB)%nat -> (t < pT PB)%nat -> pg PB (snd st) j t = pL PB j * fst st j t - Sum n (fun i => X i j * Y i t) / INR n).
  { intros st j t F Hj Ht. apply (orth_grad n p X Y Hn HO (fst st) (snd st) j t); auto. }
  assert (HL := probT_steps n p Hn k T X Y HS). set (W1 := closed_form_mt k n T X Y). set (W2 := fun j t => if Reqb (Lq n X j) 0 then 0 else W j t).
  assert (F : forall W, fitted PB (W, lin_mt p X W)) by (intros V i t _ _; reflexivity).
  pose proof (probT_obj n p T k X Y W1 _ (F W1)) as E1. pose proof (probT_obj n p T k X Y W2 _ (F W2)) as E2.
  apply Rle_trans with (1 := Req_le _ _ (eq_sym E1)). apply Rle_trans with (2 := Req_le _ _ E2).
  refine (canon_min PB (okstepT k) (cT k) (fun j t => Sum n (fun i => X i j * Y i t) / INR n) (quad_data n p T X Y (proxT k) (penT k) (distT k) Hn) (penT_theory k T Hr) HL OG (seq 0 p) _ _ _ _ _ _ _).
  - split; [apply seq_NoDup|]. intros j Hj. apply in_seq in Hj. change (pp PB) with p. lia.
  - intros j Hj. apply in_seq. change (pp PB) with p in Hj. lia.
  - split; [apply F|]. split.
    + intros j t Hj Ht E. apply dead_closed_mt; auto.
    + intros j Hj Hl. symmetry. exact (bestT T X Y k j Hr (HL j Hj Hl) Hl).
  - apply F.
  - intros j t Hj Ht E. cbn [fst]. unfold W2. change (pL PB j) with (Lq n X j) in E. rewrite E, Reqb_refl. auto.
Qed.
End Fit.
