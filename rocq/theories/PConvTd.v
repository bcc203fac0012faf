(** Convergence when the score used for selection and stopping is not the optimality violation:
    [td] is the violation, [pdist P] the score.  Adapts the last part of [PConv]. *)
From Coq Require Import List ZArith Bool Arith Reals Lra Lia.
From Verif Require Import Ops Arr XR SpecPen VecR MUtils MCd PBase RSum SpecLin SpecData PDatafit PCalc PDataProps PAnderson SpecSolve PStruct PNoPanic PLaws PRef PRefPen PSim PSubdiff PSubdiffBlock PSymProps PDescent PConv PTheory.
Import ListNotations.
Open Scope R_scope.

Definition with_dist (P : problem) (td : list R -> list R -> R) : problem :=
  Problem (pn P) (pp P) (pT P) (pX P) (pf P) (pg P) (pL P) (pprox P) (ppv P) td.

Section Conv.
Variables (P : problem) (td : list R -> list R -> R) (okstep : R -> Prop) (c : R -> R) (srt : list xr -> list nat).
Local Notation P' := (with_dist P td).
Local Notation p := (pp P). Local Notation T := (pT P). Local Notation n := (pn P). Local Notation X := (pX P).
Hypotheses (VS : valid_sort xops srt) (DT : data_theory P) (PT : pen_theory T (pprox P) (ppv P) okstep c) (ST : score_theory T (ppv P) td)
  (HL : forall j, (j < p)%nat -> pL P j <> 0 -> okstep (1 / pL P j)).
Variables (H B k0 : R).
Hypotheses (H0 : 0 <= H) (B0 : 0 < B) (Hk0 : 0 < k0)
  (HH : forall Z j k d, (j < p)%nat -> (k < p)%nat -> norm2 (vminus (row P (pg P (PCalc.shift X Z j d)) k) (row P (pg P Z) k)) <= H * norm2 (tab T d))
  (HK : forall j, (j < p)%nat -> live P j -> k0 <= kap P c j)
  (HBL : forall j, (j < p)%nat -> pL P j <= B)
  (HB3 : forall j g, (j < p)%nat -> live P j -> length g = T ->
     td (repeat 0 T) g <= B * norm2 (pprox P (tab T (fun t => 0 - nth t g 0 / pL P j)) (1 / pL P j))).
Variables (tol eps : R) (K : nat) (acc : bool) (ws0 me : nat).
Hypotheses (Heps : 0 < eps) (Hws0 : (1 <= ws0 <= p)%nat) (Hme : (1 <= me)%nat) (Hcalm : calm acc K (seq 0 me)) (Hsafe : accel_safe acc K (ws0 * T) me).
(** rows which are not reported, or settled *)
Definition fine (w g : list R) : Prop := pdist P w g <= tol \/ td w g <= eps.
Hypothesis (Hcmp : forall g g', length g = T -> length g' = T -> pdist P (repeat 0 T) g <= pdist P (repeat 0 T) g' -> td (repeat 0 T) g' <= eps -> fine (repeat 0 T) g).
Local Notation obj := (obj P). Local Notation tdist := (rdist P').
Local Notation dl := (delta P' H B k0 eps).
Local Notation go := (router P srt (Fin tol) K acc ws0 me).
Definition allfine (st : rmat * rmat) : Prop := done P tol st \/ forall j, (j < p)%nat ->
  (rnz P (fst st) j = true -> tdist (fst st) (snd st) j <= eps) /\ (rnz P (fst st) j = false -> fine (row P (fst st) j) (row P (pg P (snd st)) j)).

Lemma data' : data_theory P'.
Proof. destruct DT. constructor; auto. Qed.
Definition settled' (o : R) (st : rmat * rmat) : Prop :=
  obj st <= o /\ (o - obj st < dl -> forall j, (j < p)%nat -> rnz P (fst st) j = true -> tdist (fst st) (snd st) j <= eps).
Lemma outer_once' W Z : ~ done P tol (W, Z) -> dead_zero P W -> exists st', (forall m, go (S m) W Z = go m (fst st') (snd st')) /\ obj st' <= obj (W, Z) /\
  dead_zero P (fst st') /\ settled' (obj (W, Z)) st' /\
  (obj (W, Z) - obj st' < dl -> forall j, (j < p)%nat -> rnz P W j = false -> fine (row P W j) (row P (pg P Z) j)).
Proof.
  intros Hnd HD. destruct (sel_all P srt VS W Z ws0 (proj2 Hws0) (proj1 Hws0)) as (ws & Es & Hws & HLn & HNZ & HTop).
  assert (Hno : xle (rkmax P W Z (seq 0 p)) (Fin tol) = false).
  { apply not_true_is_false. intros E. apply Hnd. exact (proj1 (kmax_le P W Z tol) E). }
  set (km := rkmax P W Z (seq 0 p)) in *.
  assert (HA : acc = true -> (1 <= K <= length ws * T)%nat \/ forall e, In e (seq 0 me) -> (e mod S K <> K)%nat).
  { intros Ha. destruct Hsafe as [A|[A|A]]; [congruence|left; nia|right]. intros e He. apply in_seq in He. rewrite Nat.mod_small; lia. }
  destruct (rinner_ret P (Fin tol) km K acc ws (seq 0 me) W Z (fun _ _ => 0) HA) as ([W' Z'] & Ei).
  exists (W', Z'). cbn [fst snd]. split.
  { intros m. cbn [router]. fold km. rewrite Hno, Es. cbn [bind]. rewrite Ei. reflexivity. }
  destruct (inner_inv P okstep c DT PT HL _ _ _ _ _ Hws _ _ _ _ _ Ei) as (O & _ & Soff & Dd). split; auto.
  assert (Hwl := ws_len P' ws0 me Hws0 Hme ws Hws). assert (HD' : dead_zero P W') by (apply Dd; auto; intros a k t _ _ _; reflexivity). split; [exact HD'|].
  assert (EP : 0 < eta P' H B eps) by (apply eta_pos; auto).
  split.
  - split; [exact O|]. cbn [fst snd]. intros Hsm j Hj Hnz.
    assert (Hin : In j ws).
    { destruct (in_dec Nat.eq_dec j ws) as [|Hni]; auto. exfalso. apply nz_row_true in Hnz. apply Hnz. apply tab_zero. intros t Ht. apply (Soff j t Hni).
      destruct (rnz P W j) eqn:E; [exfalso; apply Hni; apply HNZ; auto|]. apply nz_row in E.
      assert (E' := f_equal (fun l => nth t l 0) E). unfold row in E'. cbv beta in E'. rewrite nth_tab in E' by auto. rewrite E'. apply nth_repeat. }
    assert (Hl : live P j) by (intros E; apply nz_row_true in Hnz; apply Hnz; apply dead_row; auto).
    assert (Hne : seq 0 me <> []) by (destruct me; [lia|discriminate]).
    destruct (inner_last P okstep c DT PT HL (Fin tol) km K acc ws Hws (seq 0 me) W Z (fun _ _ => 0) (W', Z') Hne Hcalm Ei) as (st0 & E0 & HO0).
    destruct (steps_small P' okstep c data' PT ST HL H B k0 H0 B0 Hk0 HH HK HBL HB3 (eta P' H B eps) ws EP Hws st0) as (_ & S2 & _).
    { change (PRef.rstep P') with (PRef.rstep P). rewrite <- E0. unfold delta in Hsm. change (PDescent.obj P') with obj. lra. }
    specialize (S2 j Hin Hl). change (PRef.rstep P') with (PRef.rstep P) in S2. rewrite <- E0 in S2. cbn [fst snd] in S2. apply Rle_trans with (1 := S2). apply (eta_bound P' H B H0 B0 eps Heps); auto.
  - intros Hsm j Hj Hz. destruct (HTop j Hj Hz) as (k & Hk & Hkz & Hle). unfold rdist in Hle. rewrite (nz_row P W j Hz), (nz_row P W k Hkz) in *.
    apply Hcmp with (2 := row_len P (pg P Z) k) (3 := Hle); [apply row_len|].
    destruct (Req_dec (pL P k) 0) as [E|E].
    + apply Rle_trans with 0; [|lra]. pose proof (dist_dead P' okstep c data' PT ST W Z k (proj2 Hws k Hk) E (nz_row P W k Hkz)) as Q. unfold rdist in Q.
      change (PRef.row P') with (PRef.row P) in Q. rewrite (nz_row P W k Hkz) in Q. exact Q.
    + assert (F : obj (W', Z') <= obj (fold_left (rstep P) ws (W, Z))).
      { destruct me as [|m']; [lia|]. cbn [seq] in Ei. eapply (inner_first P okstep c); eauto. }
      destruct (steps_small P' okstep c data' PT ST HL H B k0 H0 B0 Hk0 HH HK HBL HB3 (eta P' H B eps) ws EP Hws (W, Z)) as (_ & _ & S3).
      { change (PRef.rstep P') with (PRef.rstep P). change (PDescent.obj P') with obj. unfold delta in Hsm. lra. }
      specialize (S3 k Hk E (nz_row P W k Hkz)). cbn [fst snd] in S3. unfold rdist in S3. change (PRef.row P') with (PRef.row P) in S3. rewrite (nz_row P W k Hkz) in S3.
      apply Rle_trans with (1 := S3). apply (eta_bound P' H B H0 B0 eps Heps); auto.
Qed.
(** the states after [0], [1], ... outer iterations *)
Variable (st0 : rmat * rmat).
Hypotheses (Hd0 : dead_zero P (fst st0)) (Hz0 : forall j, (j < p)%nat -> rnz P (fst st0) j = false).
Lemma go_add m W Z : go (S m) W Z = bind (go m W Z) (fun st => go 1 (fst st) (snd st)).
Proof. replace (S m) with (m + 1)%nat by lia. rewrite router_add. destruct (go m W Z) as [[W' Z']|]; reflexivity. Qed.
Definition at_ (m : nat) : rmat * rmat := match go m (fst st0) (snd st0) with Ret st => st | _ => st0 end.
Lemma seq_inv m : go m (fst st0) (snd st0) = Ret (at_ m) /\ dead_zero P (fst (at_ m)) /\ (done P tol (at_ m) \/ exists o, settled' o (at_ m) /\ o <= obj (at_ (pred m))).
Proof.
  induction m as [|m (E & HD & IH)].
  - assert (E0 : at_ 0 = st0) by (unfold at_; cbn [router]; destruct st0; reflexivity). simpl pred. rewrite E0. split; [cbn [router]; destruct st0; reflexivity|]. split; auto.
    right. exists (obj st0). split; [|lra]. split; [lra|]. intros _ j Hj Hnz. rewrite Hz0 in Hnz by auto. discriminate.
  - assert (ES : go (S m) (fst st0) (snd st0) = go 1 (fst (at_ m)) (snd (at_ m))) by (rewrite go_add, E; reflexivity).
    destruct (done_dec P tol (at_ m)) as [Hd|Hd].
    + rewrite (done_stops P srt tol K acc ws0 me (at_ m) 1 Hd) in ES. assert (EA : at_ (S m) = at_ m) by (unfold at_ at 1; rewrite ES; auto). rewrite EA, ES. auto.
    + destruct (at_ m) as [W Z] eqn:Em. destruct (outer_once' W Z Hd HD) as (st' & Hgo & Hle & HD' & Hset & _). cbn [fst snd] in *. rewrite Hgo in ES. change (go (S m) (fst st0) (snd st0) = Ret (fst st', snd st')) in ES.
      assert (EA : at_ (S m) = st') by (unfold at_; rewrite ES; destruct st'; reflexivity). rewrite EA, ES. split; [destruct st'; reflexivity|]. split; auto. right. exists (obj (W, Z)). split; auto. simpl. rewrite Em. lra.
Qed.
Lemma seq_desc m : obj (at_ (S m)) <= obj (at_ m).
Proof.
  destruct (seq_inv m) as (E & HD & _). assert (ES : go (S m) (fst st0) (snd st0) = go 1 (fst (at_ m)) (snd (at_ m))) by (rewrite go_add, E; reflexivity).
  destruct (done_dec P tol (at_ m)) as [Hd|Hd].
  - rewrite (done_stops P srt tol K acc ws0 me (at_ m) 1 Hd) in ES. assert (EA : at_ (S m) = at_ m) by (unfold at_ at 1; rewrite ES; auto). rewrite EA. lra.
  - destruct (at_ m) as [W Z] eqn:Em. destruct (outer_once' W Z Hd HD) as (st' & Hgo & Hle & _). cbn [fst snd] in *. rewrite Hgo in ES. change (go (S m) (fst st0) (snd st0) = Ret (fst st', snd st')) in ES.
    assert (EA : at_ (S m) = st') by (unfold at_; rewrite ES; destruct st'; reflexivity). rewrite EA. auto.
Qed.
Lemma seq_fine m : obj (at_ (pred m)) - obj (at_ (S m)) < dl -> allfine (at_ m).
Proof.
  intros Hsm. destruct (seq_inv m) as (E & HD & IH). destruct (done_dec P tol (at_ m)) as [Hd|Hd].
  - left. auto.
  - destruct IH as [IH|(o & (IH1 & IH2) & Ho)]; [contradiction|]. pose proof (seq_desc m) as Hdec.
    destruct (at_ m) as [W Z] eqn:Em. destruct (outer_once' W Z Hd HD) as (st' & Hgo & Hle & HD' & Hset & Hz). cbn [fst snd] in *.
    assert (ES : go (S m) (fst st0) (snd st0) = go 1 W Z) by (rewrite go_add, E; reflexivity). rewrite Hgo in ES. change (go (S m) (fst st0) (snd st0) = Ret (fst st', snd st')) in ES.
    assert (EA : at_ (S m) = st') by (unfold at_; rewrite ES; destruct st'; reflexivity). rewrite EA in *.
    right. intros j Hj. cbn [fst snd]. split; intros En; [apply (IH2 ltac:(lra) j Hj En)|apply Hz; auto; lra].
Qed.
Lemma eventually_fine : exists N, forall m, (N <= m)%nat -> exists st, go m (fst st0) (snd st0) = Ret st /\ allfine st.
Proof.
  set (u := fun m => obj (at_ m)). assert (Hdec : Un_decreasing u) by (intros m; apply seq_desc).
  assert (Hlb : has_lb u).
  { exists 0. intros x (m & ->). unfold opp_seq, u. pose proof (obj_nonneg P okstep c DT PT (at_ m)). lra. }
  destruct (decreasing_cv u Hdec Hlb) as (lim & Hlim).
  assert (Hdl : 0 < dl) by (apply delta_pos; auto).
  destruct (CV_Cauchy u (exist _ lim Hlim) dl Hdl) as (N & HN). exists (S N). intros m Hm. exists (at_ m). split; [apply seq_inv|].
  apply seq_fine. specialize (HN (pred m) (S m) ltac:(lia) ltac:(lia)). unfold R_dist, u in HN. apply Rle_lt_trans with (2 := HN). apply Rle_abs.
Qed.
End Conv.


(** whole runs *)
Section Solve.
Variables (P : problem) (td : list R -> list R -> R) (okstep : R -> Prop) (c : R -> R) (srt : list xr -> list nat).
Local Notation p := (pp P). Local Notation T := (pT P).
Hypotheses (VS : valid_sort xops srt) (DT : data_theory P) (PT : pen_theory T (pprox P) (ppv P) okstep c) (ST : score_theory T (ppv P) td)
  (HL : forall j, (j < p)%nat -> pL P j <> 0 -> okstep (1 / pL P j))
  (HH : exists H, 0 <= H /\ forall Z j k d, (j < p)%nat -> (k < p)%nat -> norm2 (vminus (row P (pg P (PCalc.shift (pX P) Z j d)) k) (row P (pg P Z) k)) <= H * norm2 (tab T d))
  (HK : forall j, (j < p)%nat -> live P j -> 0 < c (1 / pL P j))
  (HM : forall j, (j < p)%nat -> live P j -> exists M, zero_moves T (pprox P) td (pL P j) M).
Lemma solve_fine tol eps K acc ws0 me : 0 < eps -> (1 <= ws0)%nat -> (1 <= me)%nat -> calm acc K (seq 0 me) -> accel_safe acc K (Nat.min ws0 p * T) me ->
  (forall g g', length g = T -> length g' = T -> pdist P (repeat 0 T) g <= pdist P (repeat 0 T) g' -> td (repeat 0 T) g' <= eps -> fine P td tol eps (repeat 0 T) g) ->
  exists N, forall m, (N <= m)%nat -> exists st, rsolve P srt (Fin tol) K acc ws0 me m = Ret st /\ allfine P td tol eps st.
Proof.
  intros Ht Hw Hme Hcalm Hsafe Hcmp. set (st0 := (fun _ _ => 0, fun _ _ => 0) : rmat * rmat). destruct (Nat.eq_dec p 0) as [E0|E0].
  { exists 0%nat. intros m _. exists st0. assert (Hd : done P tol st0) by (intros j Hj; lia). split; [|left; auto].
    apply (done_stops P srt tol K acc (Nat.min ws0 p) me st0); auto. }
  destruct HH as (H & H0 & HHb).
  destruct (finite_lower p (live P) (kap P c)) as (k0 & Hk0 & HKb).
  { intros j Hj Hl. unfold kap. pose proof (da_L P DT j). unfold live in Hl. specialize (HK j Hj Hl). assert (0 < c (1 / pL P j) * pL P j) by (apply Rmult_lt_0_compat; lra). lra. }
  destruct (finite_upper p (fun j b => pL P j <= b /\ (live P j -> zero_moves T (pprox P) td (pL P j) b))) as (B' & HB0' & HB').
  { intros j b b' Hj [Q1 Q2] Hb. split; [lra|]. intros Hl g Hg. apply Rle_trans with (1 := Q2 Hl g Hg). apply Rmult_le_compat_r; auto. apply norm2_pos. }
  { intros j Hj. destruct (Req_dec (pL P j) 0) as [E|E]; [exists 0; split; [lra|intros Hl; contradiction]|]. destruct (HM j Hj E) as (M & Q). exists (Rmax (pL P j) M). split; [apply Rmax_l|].
    intros _ g Hg. apply Rle_trans with (1 := Q g Hg). apply Rmult_le_compat_r; [apply norm2_pos|apply Rmax_r]. }
  assert (HW : (1 <= Nat.min ws0 p <= p)%nat) by lia.
  destruct (bound_up P td B' HB0' HB') as (B & HB0 & HB).
  apply (eventually_fine P td okstep c srt VS DT PT ST HL H B k0 H0 HB0 Hk0 HHb HKb (fun j Hj => proj1 (HB j Hj)) (fun j g Hj Hl Hg => proj2 (HB j Hj) Hl g Hg)
    tol eps K acc (Nat.min ws0 p) me Ht HW Hme Hcalm Hsafe Hcmp st0).
  - intros ? ? ? ? ?. reflexivity.
  - intros j Hj. destruct (rnz P (fst st0) j) eqn:E; auto. apply nz_row_true in E. exfalso. apply E. apply tab_zero. reflexivity.
Qed.
End Solve.
