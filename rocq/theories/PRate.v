(** How fast the objective approaches its minimum. *)
From Coq Require Import List ZArith Bool Arith Reals Lra Lia.
From Verif Require Import Ops Arr XR SpecPen VecR MUtils MHyper MEstimators MCd PBase RSum SpecLin SpecData PDatafit PCalc PDataProps PAnderson SpecSolve PStruct PNoPanic PLaws PRef PRefPen PSim PFit PSubdiff PSubdiffBlock PSymProps PDescent PConv PTheory SpecOpt PFitOpt PCert SpecBudget PBudget.
Import ListNotations.
Open Scope R_scope.

Section Rate.
Variables (P : problem) (okstep : R -> Prop) (c : R -> R) (srt : list xr -> list nat).
Local Notation p := (pp P). Local Notation T := (pT P).
Hypotheses (VS : valid_sort xops srt) (DT : data_theory P) (PT : pen_theory T (pprox P) (ppv P) okstep c) (ST : score_theory T (ppv P) (pdist P))
  (HL : forall j, (j < p)%nat -> pL P j <> 0 -> okstep (1 / pL P j)).
Variables (H B k0 : R).
Hypotheses (H0 : 0 <= H) (B0 : 0 < B) (Hk0 : 0 < k0)
  (HH : forall Z j k d, (j < p)%nat -> (k < p)%nat -> norm2 (vminus (row P (pg P (shift (pX P) Z j d)) k) (row P (pg P Z) k)) <= H * norm2 (tab T d))
  (HK : forall j, (j < p)%nat -> live P j -> k0 <= kap P c j)
  (HB : forall j, (j < p)%nat -> pL P j <= B)
  (HM : forall j, (j < p)%nat -> live P j -> zero_moves T (pprox P) (pdist P) (pL P j) B).
Local Notation obj := (obj P). Local Notation C := (B + INR p * H).
Variables (tol : R) (K : nat) (acc : bool) (ws0 me : nat).
Hypotheses (Hws0 : (1 <= ws0 <= p)%nat) (Hme : (1 <= me)%nat) (Hcalm : calm acc K (seq 0 me)).
Local Notation go := (router P srt (Fin tol) K acc ws0 me).
Local Notation settled := (settled P H B k0). Local Notation delta := (delta P H B k0).
Local Notation done := (done P).

(** an outer iteration of a run with tolerance [tol], seen at any accuracy [eps] *)
Lemma outer_ret m W Z st : ~ done tol (W, Z) -> dead_zero P W -> go (S m) W Z = Ret st ->
  exists st', go m (fst st') (snd st') = Ret st /\ (fitted P (W, Z) -> fitted P st') /\ forall eps, 0 < eps -> settled eps (obj (W, Z)) st' /\
  (obj (W, Z) - obj st' < delta eps -> forall j, (j < p)%nat -> rnz P W j = false -> rdist P W Z j <= eps).
Proof.
  intros Hnd HD Hrun. destruct (sel_all P srt VS W Z ws0 (proj2 Hws0) (proj1 Hws0)) as (ws & Es & Hws & HLn & HNZ & HTop).
  assert (Hno : xle (rkmax P W Z (seq 0 p)) (Fin tol) = false).
  { apply not_true_is_false. intros E. apply Hnd. exact (proj1 (kmax_le P W Z tol) E). }
  set (km := rkmax P W Z (seq 0 p)) in *. cbn [router] in Hrun. fold km in Hrun. rewrite Hno, Es in Hrun. cbn [bind] in Hrun.
  destruct (rinner P (Fin tol) km K acc ws (seq 0 me) W Z (fun _ _ => 0)) as [[W' Z']|] eqn:Ei; cbn [bind] in Hrun; [|discriminate].
  exists (W', Z'). cbn [fst snd]. split; [exact Hrun|].
  destruct (inner_inv P okstep c DT PT HL _ _ _ _ _ Hws _ _ _ _ _ Ei) as (O & Fi & Soff & Dd). split; [exact Fi|].
  assert (Hwl := ws_len P ws0 me Hws0 Hme ws Hws). assert (HD' : dead_zero P W') by (apply Dd; auto; intros a k t _ _ _; reflexivity).
  intros eps Heps. pose proof (eta_pos P H B H0 B0 eps Heps) as Hep. assert (Heb := eta_bound P H B H0 B0 eps Heps). split.
  - split; [exact HD'|]. split; [exact O|]. cbn [fst snd]. intros Hsm j Hj Hnz.
    assert (Hin : In j ws).
    { destruct (in_dec Nat.eq_dec j ws) as [|Hni]; auto. exfalso. apply nz_row_true in Hnz. apply Hnz. apply tab_zero. intros t Ht. apply (Soff j t Hni).
      destruct (rnz P W j) eqn:E; [exfalso; apply Hni; apply HNZ; auto|]. apply nz_row in E.
      assert (E' := f_equal (fun l => nth t l 0) E). unfold row in E'. cbv beta in E'. rewrite nth_tab in E' by auto. rewrite E'. apply nth_repeat. }
    assert (Hl : live P j) by (intros E; apply nz_row_true in Hnz; apply Hnz; apply dead_row; auto).
    assert (Hne : seq 0 me <> []) by (destruct me; [lia|discriminate]).
    destruct (inner_last P okstep c DT PT HL (Fin tol) km K acc ws Hws (seq 0 me) W Z (fun _ _ => 0) (W', Z') Hne Hcalm Ei) as (st0 & E0 & HO0).
    destruct (steps_small P okstep c DT PT ST HL H B k0 H0 B0 Hk0 HH HK HB (fun j g Hj Hl Hg => HM j Hj Hl g Hg) (eta P H B eps) ws Hep Hws st0) as (_ & S2 & _); [rewrite <- E0; unfold PConv.delta in Hsm; lra|].
    specialize (S2 j Hin Hl). rewrite <- E0 in S2. cbn [fst snd] in S2. apply Rle_trans with (1 := S2). apply Heb; auto.
  - intros Hsm j Hj Hz. destruct (HTop j Hj Hz) as (k & Hk & Hkz & Hle). apply Rle_trans with (1 := Hle).
    destruct (Req_dec (pL P k) 0) as [E|E].
    + apply Rle_trans with 0; [|lra]. apply (dist_dead P okstep c DT PT ST); auto. apply (proj2 Hws); auto. apply nz_row; auto.
    + assert (F : obj (W', Z') <= obj (fold_left (rstep P) ws (W, Z))).
      { destruct me as [|m']; [lia|]. cbn [seq] in Ei. eapply inner_first; eauto. }
      destruct (steps_small P okstep c DT PT ST HL H B k0 H0 B0 Hk0 HH HK HB (fun j g Hj Hl Hg => HM j Hj Hl g Hg) (eta P H B eps) ws Hep Hws (W, Z)) as (_ & _ & S3); [unfold PConv.delta in Hsm; lra|].
      specialize (S3 k Hk E (nz_row P W k Hkz)). cbn [fst snd] in S3. apply Rle_trans with (1 := S3). apply Heb; auto.
Qed.

(** [best]: any value; [good]: a bound on the distance to [best] for states of small violation *)
Variables (best : R).
Definition calmed (o : R) (st : rmat * rmat) : Prop := fitted P st /\ forall eps, 0 < eps -> settled eps o st.
Lemma calmed_dead o st : calmed o st -> dead_zero P (fst st) /\ obj st <= o.
Proof. intros [_ Q]. destruct (Q 1 Rlt_0_1) as (A & D & _). auto. Qed.
Lemma run_le m st st' : go m (fst st) (snd st) = Ret st' -> obj st' <= obj st.
Proof. intros E. destruct st as [W Z]. destruct (router_inv P okstep c srt VS DT PT HL (Fin tol) K acc ws0 me (proj2 Hws0) m W Z st' E) as (Q & _). exact Q. Qed.
(** a step from a state reached by a step *)
Lemma outer_two m o st fin : ~ done tol st -> calmed o st -> go (S m) (fst st) (snd st) = Ret fin ->
  exists st', go m (fst st') (snd st') = Ret fin /\ calmed (obj st) st' /\ forall eps, 0 < eps -> o - obj st' < k0 * (eps / C) ^ 2 -> done eps st.
Proof.
  intros Hnd Hc Hrun. destruct (calmed_dead o st Hc) as [HD Ho]. destruct Hc as [Hf Hs]. destruct st as [W Z].
  destruct (outer_ret m W Z fin Hnd HD Hrun) as (st' & Hgo & Hf' & Hall). exists st'. split; auto. split; [split; [auto|intros eps He; apply Hall; auto]|].
  intros eps He Hlt. destruct (Hall eps He) as [(_ & Hle & _) Hz]. destruct (Hs eps He) as (_ & _ & Hn). cbn [fst snd] in *.
  assert (E : delta eps = k0 * (eps / C) ^ 2) by reflexivity.
  intros j Hj. destruct (rnz P W j) eqn:En; [apply Hn; auto; lra|apply Hz; auto; lra].
Qed.
Lemma C_pos : 0 < C.
Proof. assert (0 <= INR p * H) by (apply Rmult_le_pos; auto; apply pos_INR). lra. Qed.
Lemma at_level (D : R) (g : R) (F : R -> R) : 0 <= D -> (forall eps, 0 < eps -> D < k0 * (eps / C) ^ 2 -> F g <= eps ^ 2) -> F g <= C ^ 2 * D / k0.
Proof.
  intros HD HF. pose proof C_pos as HC. apply le_epsilon. intros e He.
  set (t := e * k0 / C ^ 2). assert (HC2 : 0 < C ^ 2) by (apply pow_lt; auto).
  assert (Ht : 0 < t) by (unfold t; apply Rdiv_lt_0_compat; auto; apply Rmult_lt_0_compat; auto).
  assert (Hq : 0 < (D + t) / k0) by (apply Rdiv_lt_0_compat; lra).
  specialize (HF (C * sqrt ((D + t) / k0)) ltac:(apply Rmult_lt_0_compat; auto; apply sqrt_lt_R0; auto)).
  replace (C * sqrt ((D + t) / k0) / C) with (sqrt ((D + t) / k0)) in HF by (field; lra).
  rewrite Rpow_mult_distr, <- !Rsqr_pow2, Rsqr_sqrt in HF by lra. rewrite !Rsqr_pow2 in HF.
  replace (k0 * ((D + t) / k0)) with (D + t) in HF by (field; lra). specialize (HF ltac:(lra)).
  replace (C ^ 2 * ((D + t) / k0)) with (C ^ 2 * D / k0 + e) in HF by (unfold t; field; lra). exact HF.
Qed.
(** *** strongly convex objectives *)
Section Linear.
Variable kap0 : R.
Hypotheses (Hk : 0 < kap0) (Hgood : forall eps st, 0 < eps -> fitted P st -> obj st <= obj (fun _ _ => 0, fun _ _ => 0) -> done eps st -> kap0 * (obj st - best) <= eps ^ 2).
Local Notation q := (C ^ 2 / (C ^ 2 + kap0 * k0)).
Lemma q_pos : 0 < q.
Proof. pose proof C_pos. assert (0 < C ^ 2) by (apply pow_lt; auto). assert (0 < kap0 * k0) by (apply Rmult_lt_0_compat; auto). apply Rdiv_lt_0_compat; lra. Qed.
Lemma rate_linear m : forall N o st fin, (2 * m <= N)%nat -> o <= obj (fun _ _ => 0, fun _ _ => 0) -> calmed o st -> go N (fst st) (snd st) = Ret fin ->
  done tol fin \/ obj fin - best <= q ^ m * (o - best).
Proof.
  induction m as [|m IH]; intros N o st fin HN Hoo Hc Hrun.
  - right. simpl. rewrite Rmult_1_l. pose proof (run_le N st fin Hrun). destruct (calmed_dead o st Hc). lra.
  - destruct (done_dec P tol st) as [Hd|Hd]; [rewrite (done_stops P srt tol K acc ws0 me st N Hd) in Hrun; injection Hrun as <-; auto|].
    destruct N as [|[|N]]; [lia|lia|]. destruct (outer_two (S N) o st fin Hd Hc Hrun) as (s1 & Hr1 & Hc1 & Hv).
    destruct (calmed_dead _ _ Hc) as [_ Ho]. destruct (calmed_dead _ _ Hc1) as [_ Ho1].
    assert (HG : kap0 * (obj st - best) <= C ^ 2 * (o - obj s1) / k0).
    { apply (at_level (o - obj s1) (obj st - best) (fun g => kap0 * g)); [lra|]. intros eps He Hlt. apply Hgood; auto; [apply Hc|lra]. }
    assert (H1 : obj s1 - best <= q * (o - best)).
    { assert (HC2 : 0 < C ^ 2) by (apply pow_lt, C_pos). assert (Hkk : 0 < kap0 * k0) by (apply Rmult_lt_0_compat; auto).
      apply Rmult_le_reg_l with (C ^ 2 + kap0 * k0); [lra|]. replace ((C ^ 2 + kap0 * k0) * (q * (o - best))) with (C ^ 2 * (o - best)) by (field; lra).
      apply (Rmult_le_compat_r k0) in HG; [|lra]. replace (C ^ 2 * (o - obj s1) / k0 * k0) with (C ^ 2 * (o - obj s1)) in HG by (field; lra).
      assert (kap0 * k0 * (obj s1 - best) <= kap0 * k0 * (obj st - best)) by (apply Rmult_le_compat_l; lra). lra. }
    destruct (done_dec P tol s1) as [Hd1|Hd1]; [rewrite (done_stops P srt tol K acc ws0 me s1 (S N) Hd1) in Hr1; injection Hr1 as <-; auto|].
    destruct (outer_two N _ s1 fin Hd1 Hc1 Hr1) as (s2 & Hr2 & Hc2 & _).
    destruct (IH N (obj s1) s2 fin ltac:(lia) ltac:(lra) Hc2 Hr2) as [|Hrate]; [auto|right].
    apply Rle_trans with (1 := Hrate). replace (q ^ S m * (o - best)) with (q ^ m * (q * (o - best))) by (simpl; ring).
    apply Rmult_le_compat_l; auto. apply pow_le. left. apply q_pos.
Qed.
End Linear.
(** *** convex objectives *)
Section Sublinear.
Variable r : R.
Hypotheses (Hr : 0 < r) (Hgood : forall eps st, 0 < eps -> fitted P st -> obj st <= obj (fun _ _ => 0, fun _ _ => 0) -> done eps st -> obj st - best <= r * eps).
Variable Q : R.
Hypotheses (HQ : 2 * (r ^ 2 * C ^ 2 / k0) <= Q).
Lemma rate_sublinear m : forall i N o st fin, (2 * m <= N)%nat -> o <= obj (fun _ _ => 0, fun _ _ => 0) -> o - best <= Q / INR (S i) -> calmed o st -> go N (fst st) (snd st) = Ret fin ->
  done tol fin \/ obj fin - best <= Q / INR (S (i + m)).
Proof.
  assert (HA0 : 0 < r ^ 2 * C ^ 2 / k0) by (apply Rdiv_lt_0_compat; auto; apply Rmult_lt_0_compat; apply pow_lt; auto; apply C_pos). set (A := r ^ 2 * C ^ 2 / k0) in *.
  induction m as [|m IH]; intros i N o st fin HN Hoo Hi Hc Hrun.
  - right. rewrite Nat.add_0_r. pose proof (run_le N st fin Hrun). destruct (calmed_dead o st Hc). lra.
  - destruct (done_dec P tol st) as [Hd|Hd]; [rewrite (done_stops P srt tol K acc ws0 me st N Hd) in Hrun; injection Hrun as <-; auto|].
    destruct N as [|[|N]]; [lia|lia|]. destruct (outer_two (S N) o st fin Hd Hc Hrun) as (s1 & Hr1 & Hc1 & Hv).
    destruct (calmed_dead _ _ Hc) as [_ Ho]. destruct (calmed_dead _ _ Hc1) as [_ Ho1].
    assert (H1 : obj s1 - best <= Q / INR (S (S i))).
    { apply Rnot_lt_le. intros Hlt. assert (HI : 0 < INR (S i)) by (apply lt_0_INR; lia). rewrite (S_INR (S i)) in Hlt. set (x := INR (S i)) in *. assert (Hx1 : 1 <= x) by (apply (le_INR 1); lia).
      assert (Hg0 : 0 < Q / (x + 1)) by (apply Rdiv_lt_0_compat; lra).
      assert (HG : (/ r * (obj st - best)) ^ 2 <= C ^ 2 * (o - obj s1) / k0).
      { apply (at_level (o - obj s1) (obj st - best) (fun g => (/ r * g) ^ 2)); [lra|]. intros eps He Hl. assert (E := Hgood eps st He (proj1 Hc) ltac:(lra) (Hv eps He Hl)).
        apply pow_incr. split; [apply Rmult_le_pos; [left; apply Rinv_0_lt_compat; auto|lra]|]. apply Rmult_le_reg_l with r; auto. rewrite <- Rmult_assoc, Rinv_r by lra. lra. }
      assert (HG' : (obj st - best) ^ 2 <= A * ((o - best) - (obj s1 - best))).
      { apply (Rmult_le_compat_l (r ^ 2)) in HG; [|apply pow2_ge_0]. replace (r ^ 2 * (/ r * (obj st - best)) ^ 2) with ((obj st - best) ^ 2) in HG by (field; lra).
        apply Rle_trans with (1 := HG). right. unfold A. field. lra. }
      assert (Hsq : (obj s1 - best) ^ 2 <= (obj st - best) ^ 2) by (apply pow_incr; lra).
      set (a1 := obj s1 - best) in *. set (a0 := o - best) in *.
      assert (H2 : (Q / (x + 1)) ^ 2 < a1 ^ 2) by (simpl; rewrite !Rmult_1_r; apply Rmult_gt_0_lt_compat; lra).
      assert (H3 : Q / (x + 1) * (Q / (x + 1)) < A * (Q / x - Q / (x + 1))).
      { apply Rlt_le_trans with (a1 ^ 2); [simpl in H2; lra|]. apply Rle_trans with (A * (a0 - a1)); [lra|]. apply Rmult_le_compat_l; lra. }
      replace (Q / x - Q / (x + 1)) with (Q / (x + 1) * / x) in H3 by (field; lra).
      assert (H4 : Q / (x + 1) < A * / x). { apply Rmult_lt_reg_l with (Q / (x + 1)); auto. lra. }
      apply (Rmult_lt_compat_r (x * (x + 1))) in H4; [|apply Rmult_lt_0_compat; lra].
      replace (Q / (x + 1) * (x * (x + 1))) with (Q * x) in H4 by (field; lra). replace (A * / x * (x * (x + 1))) with (A * (x + 1)) in H4 by (field; lra). nra. }
    destruct (done_dec P tol s1) as [Hd1|Hd1]; [rewrite (done_stops P srt tol K acc ws0 me s1 (S N) Hd1) in Hr1; injection Hr1 as <-; auto|].
    destruct (outer_two N _ s1 fin Hd1 Hc1 Hr1) as (s2 & Hr2 & Hc2 & _).
    destruct (IH (S i) N (obj s1) s2 fin ltac:(lia) ltac:(lra) H1 Hc2 Hr2) as [|Hrate]; [auto|right].
    replace (i + S m)%nat with (S i + m)%nat by lia. exact Hrate.
Qed.
End Sublinear.
End Rate.
