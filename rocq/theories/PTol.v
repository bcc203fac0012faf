(** Proofs for C96: the tolerance. *)
From Coq Require Import List ZArith Bool Arith Reals Lra Lia.
From Verif Require Import Ops Arr MUtils MDatasets MDatafits MDatafitsMT MPenalties MBlockPenalties MCd MBcd MHyper MEstimators XR SpecPen VecR PBase RSum PProx SpecLin SpecData PDatafit PCalc PDataProps SpecSolve PLaws PRef PRefCD PRefPen PSim PFit PSubdiff PSubdiffBlock PSymProps PDescent PConv PTheory SpecOpt PFitOpt SpecTol.
Import ListNotations.
Open Scope R_scope.

Lemma stricter_le t t' k : stricter t t' -> xle k t = true -> xle k t' = true.
Proof.
  intros [->|H] Hk; [destruct k; discriminate|]. destruct k, t, t'; cbn in *; try discriminate; auto. rb. apply Rleb_spec. lra.
Qed.
Lemma kmax_same P W Z ws ws' : (forall j, In j ws <-> In j ws') -> rkmax P W Z ws = rkmax P W Z ws'.
Proof.
  intros H. unfold rkmax. rewrite <- !map_map with (g := Fin) (f := fun j => rdist P W Z j).
  assert (A : forall x, In x (map (fun j => rdist P W Z j) ws) <-> In x (map (fun j => rdist P W Z j) ws')).
  { intros x. rewrite !in_map_iff. split; intros (j & E & Hj); exists j; split; auto; apply H; auto. }
  destruct (fold_max_reported (map (fun j => rdist P W Z j) ws)) as [[E ->]|(r & -> & Hr & Hm)], (fold_max_reported (map (fun j => rdist P W Z j) ws')) as [[E' ->]|(r' & -> & Hr' & Hm')]; auto.
  - exfalso. apply A in Hr'. rewrite E in Hr'. destruct Hr'.
  - exfalso. apply A in Hr. rewrite E' in Hr. destruct Hr.
  - f_equal. assert (r <= r') by (apply Hm', A; auto). assert (r' <= r) by (apply Hm, A; auto). lra.
Qed.
Lemma all_features ws p : NoDup ws -> (forall j, In j ws -> (j < p)%nat) -> length ws = p -> forall j, In j ws <-> In j (seq 0 p).
Proof.
  intros ND H E j. split; intros Hj; [apply in_seq; specialize (H j Hj); lia|].
  refine (NoDup_length_incl (l' := seq 0 p) ND _ _ j Hj); [rewrite seq_length; lia|]. intros x Hx. apply in_seq. specialize (H x Hx). lia.
Qed.

Section Tol.
Variables (P : problem) (okstep : R -> Prop) (c : R -> R) (srt : list xr -> list nat).
Local Notation p := (pp P). Local Notation T := (pT P).
Hypotheses (VS : valid_sort xops srt) (DT : data_theory P) (PT : pen_theory T (pprox P) (ppv P) okstep c)
  (HL : forall j, (j < p)%nat -> pL P j <> 0 -> okstep (1 / pL P j)).
Variables (t t' : xr).
Hypotheses (Ht : stricter t t').

Lemma inner_tol kmax K acc ws : ws_ok P ws -> forall es W Z H st, rinner P t kmax K acc ws es W Z H = Ret st ->
  exists st', rinner P t' kmax K acc ws es W Z H = Ret st' /\
    (st' = st \/ (obj P st <= obj P st' /\ length ws = p /\ xle (rkmax P (fst st') (snd st') ws) t' = true)).
Proof.
  intros Hws. induction es as [|e es IH]; intros W Z H st E; [exists st; cbn [rinner] in *; auto|].
  cbn [rinner] in *. destruct (fold_left (rstep P) ws (W, Z)) as [W1 Z1]. destruct (if acc then _ else _) as [[[W2 Z2] H2]|]; cbn [bind] in *; [|discriminate].
  cbv zeta in *. destruct (_ && _); [|apply IH; auto]. destruct (length ws =? p)%nat eqn:El.
  - destruct (xle (rkmax P W2 Z2 ws) t) eqn:E1.
    + rewrite (stricter_le _ _ _ Ht E1). exists st. auto.
    + destruct (xle (rkmax P W2 Z2 ws) t') eqn:E2; [|apply IH; auto]. exists (W2, Z2). split; auto. right.
      apply Nat.eqb_eq in El. split; [|split; auto].
      apply (inner_inv P okstep c DT PT HL t kmax K acc ws Hws es W2 Z2 H2 st E).
  - destruct (xlt _ _); [exists st; auto|apply IH; auto].
Qed.
Lemma router_tol K acc ws0 me : (ws0 <= p)%nat -> forall it W Z st, router P srt t K acc ws0 me it W Z = Ret st ->
  exists st', router P srt t' K acc ws0 me it W Z = Ret st' /\ obj P st <= obj P st'.
Proof.
  intros H0. induction it as [|it IH]; intros W Z st E; [exists st; cbn [router] in *; split; auto; lra|].
  assert (HI := router_inv P okstep c srt VS DT PT HL t K acc ws0 me H0 (S it) W Z st E). cbn [router] in *.
  destruct (xle (rkmax P W Z (seq 0 p)) t') eqn:E1; [exists (W, Z); split; auto; apply HI|].
  destruct (xle (rkmax P W Z (seq 0 p)) t) eqn:E2; [rewrite (stricter_le _ _ _ Ht E2) in E1; discriminate|].
  destruct (rsel_ok P srt VS W Z ws0 H0) as (ws & Es & ND & Hws & HLn). rewrite Es in *. cbn [bind] in *.
  destruct (rinner _ _ _ _ _ _ _ _ _ _) as [[W' Z']|] eqn:Ei in E; cbn [bind] in E; [|discriminate].
  destruct (inner_tol _ K acc ws (conj ND Hws) _ _ _ _ _ Ei) as ([W2 Z2] & -> & [Eq|(HO & El & Hx)]); cbn [bind fst snd] in *.
  - injection Eq as -> ->. apply IH; auto.
  - exists (W2, Z2). split.
    + destruct it; cbn [router]; [reflexivity|]. rewrite <- (kmax_same P W2 Z2 ws) by (apply all_features; auto). rewrite Hx. reflexivity.
    + assert (HI' := router_inv P okstep c srt VS DT PT HL t K acc ws0 me H0 it W' Z' st E). lra.
Qed.
Lemma solve_tol K acc ws0 me it st : rsolve P srt t K acc ws0 me it = Ret st -> exists st', rsolve P srt t' K acc ws0 me it = Ret st' /\ obj P st <= obj P st'.
Proof. unfold rsolve. apply router_tol. apply Nat.le_min_r. Qed.
End Tol.

Lemma kmax_pinf P W Z ws : xle (rkmax P W Z ws) PInf = true.
Proof.
  unfold rkmax. rewrite <- map_map with (g := Fin) (f := fun j => rdist P W Z j).
  destruct (fold_max_reported (map (fun j => rdist P W Z j) ws)) as [[E ->]|(r & -> & _)]; reflexivity.
Qed.
Lemma solve_pinf P srt K acc ws0 me it : rsolve P srt PInf K acc ws0 me it = Ret (fun _ _ => 0, fun _ _ => 0).
Proof. unfold rsolve. destruct it; cbn [router]; auto. rewrite kmax_pinf. reflexivity. Qed.

Section Fits.
Variable (srt : list xr -> list nat) (VS : valid_sort xops srt) (n p : nat) (Hn : (1 <= n)%nat).
Section One.
Variables (X : rmat) (y : nat -> R) (l : single_loss) (k : single_pen) (s s' : solver xr) (fit fit' : nat -> res (result (list xr) (estimator_error xr))).
Hypotheses (HF' : single_fit srt n p X y l k s' fit') (Ha : accepted fit').
Lemma c96_inf m : s_tolerance s' = PInf -> fit' m = Ret (Ok (xv p (fun _ => 0))).
Proof.
  intros Et. destruct (single_run srt VS n p Hn X y l k s' fit' HF') as [(e & He)|[_ Hgo]]; [exfalso; apply (Ha 0%nat e); auto|].
  rewrite Hgo. unfold go1, run1. rewrite Et, solve_pinf. reflexivity.
Qed.
Hypotheses (HF : single_fit srt n p X y l k s fit) (Hy : targets_ok l n y) (HS : steps_ok Rle k l n p X).
Local Notation objf := (objective (loss1 l n y) p X (pen1 k)).
Lemma c96_single m v : same_but_tolerance s s' -> stricter (s_tolerance s) (s_tolerance s') -> fit m = Ret (Ok v) ->
  exists w w', v = xv p w /\ fit' m = Ret (Ok (xv p w')) /\ objf w <= objf w'.
Proof.
  intros (E1 & E2 & E3 & E4) Ht Ev. destruct (inv1 srt VS n p Hn X y l k s fit HF Hy HS m v Ev) as (Hr & W & Z & Er & -> & Hf & _ & _).
  destruct (single_run srt VS n p Hn X y l k s' fit' HF') as [(e & He)|[_ Hgo]]; [exfalso; apply (Ha 0%nat e); auto|].
  destruct (solve_tol (prob1 l k n p X y) (okstep1 k) (c1 k) srt VS (prob1_data n p Hn l k X y Hy) (prob1_pen n p l k X y Hr)) with (2 := Ht) (3 := Er) as ([W' Z'] & E & HO).
  - rewrite prob1_p. apply prob1_steps; auto.
  - assert (Ev' : fit' m = Ret (Ok (xv p (fun j => W' j 0%nat)))) by (rewrite Hgo; unfold go1, run1; rewrite <- E1, <- E2, <- E3, <- E4, E; reflexivity).
    apply (solve_shape srt VS (prob1 l k n p X y)) in E as [Hf' _].
    exists (fun j => W j 0%nat), (fun j => W' j 0%nat). split; auto. split; auto. rewrite !prob1_obj in HO by auto. exact HO.
Qed.
End One.
Section Many.
Variables (T : nat) (X Y : rmat) (k : multi_pen) (s s' : solver xr) (fit fit' : nat -> res (result (mat xr) (estimator_error xr))).
Hypotheses (HF' : multi_fit srt n p T X Y k s' fit') (Ha : accepted fit').
Lemma c96_inf_mt m : s_tolerance s' = PInf -> fit' m = Ret (Ok (xm p T (fun _ _ => 0))).
Proof.
  intros Et. destruct (multi_run srt VS n p Hn T X Y k s' fit' HF') as [_ [(e & He)|Hgo]]; [exfalso; apply (Ha 0%nat e); auto|].
  rewrite Hgo. unfold goT, runT. rewrite Et, solve_pinf. reflexivity.
Qed.
Hypotheses (HF : multi_fit srt n p T X Y k s fit) (HS : steps_ok_mt Rle k n p X).
Local Notation objf := (objective_mt (quad_loss_mt n T Y) p T X (penT k)).
Lemma c96_multi m v : same_but_tolerance s s' -> stricter (s_tolerance s) (s_tolerance s') -> fit m = Ret (Ok v) ->
  exists W W', v = xm p T W /\ fit' m = Ret (Ok (xm p T W')) /\ objf W <= objf W'.
Proof.
  intros (E1 & E2 & E3 & E4) Ht Ev. destruct (invT srt VS n p Hn T X Y k s fit HF HS m v Ev) as (W & Z & Er & -> & Hf & _ & _).
  destruct (multi_run srt VS n p Hn T X Y k s' fit' HF') as [Hr [(e & He)|Hgo]]; [exfalso; apply (Ha 0%nat e); auto|].
  destruct (solve_tol (probT k n p T X Y) (okstepT k) (cT k) srt VS (quad_data n p T X Y (proxT k) (penT k) (distT k) Hn) (penT_theory k T Hr) (probT_steps n p Hn k T X Y HS) _ _ Ht _ _ _ _ _ _ Er) as ([W' Z'] & E & HO).
  assert (Ev' : fit' m = Ret (Ok (xm p T W'))) by (rewrite Hgo; unfold goT, runT; rewrite <- E1, <- E2, <- E3, <- E4, E; reflexivity).
  apply (solve_shape srt VS (probT k n p T X Y)) in E as [Hf' _].
  exists W, W'. split; auto. split; auto. rewrite !probT_obj in HO by auto. exact HO.
Qed.
End Many.
End Fits.
