(** Strict progress of the reference solver and of the fits it describes: an outer iteration
    started at a point violating the stopping criterion strictly decreases the objective. *)
From Coq Require Import List ZArith Bool Arith Reals Lra Lia.
From Verif Require Import Ops Arr XR SpecPen VecR MUtils MDatasets MCd MBcd MHyper MEstimators PBase RSum SpecLin SpecData PDatafit PCalc PDataProps PLin PAnderson SpecSolve PStruct PNoPanic PLaws PRef PRefPen PSim PSubdiff PSubdiffBlock PSymProps PDescent PConv PTheory SpecOpt PFitOpt.
Import ListNotations.
Open Scope R_scope.

Section Strict.
Variables (P : problem) (okstep : R -> Prop) (c : R -> R) (srt : list xr -> list nat).
Local Notation p := (pp P). Local Notation T := (pT P).
Hypotheses (VS : valid_sort xops srt) (DT : data_theory P) (PT : pen_theory T (pprox P) (ppv P) okstep c)
  (HL : forall j, (j < p)%nat -> pL P j <> 0 -> okstep (1 / pL P j)) (ST : score_theory T (ppv P) (pdist P))
  (HH : exists H, 0 <= H /\ forall Z j k d, (j < p)%nat -> (k < p)%nat -> norm2 (vminus (row P (pg P (shift (pX P) Z j d)) k) (row P (pg P Z) k)) <= H * norm2 (tab T d))
  (HK : forall j, (j < p)%nat -> live P j -> 0 < c (1 / pL P j)).

Lemma minus_zero a b : length a = T -> length b = T -> norm2 (vminus a b) = 0 -> a = b.
Proof using.
  intros Ha Hb E. rewrite (tab_nth_len T a 0 Ha), (tab_nth_len T b 0 Hb) in E |- *. rewrite vminus_tab in E. apply norm2_0_inv in E. rewrite tab_length in E.
  apply tab_ext. intros t Ht. assert (Q := f_equal (fun l => nth t l 0) E). cbv beta in Q. rewrite nth_tab, nth_repeat in Q by auto. lra.
Qed.
Lemma still_rows st j : (j < p)%nat -> obj P st <= obj P (rstep P st j) -> moved P st j = 0 /\ forall k, row P (fst (rstep P st j)) k = row P (fst st) k.
Proof using DT PT HL HK.
  intros Hj Ho. assert (M0 : moved P st j = 0).
  { destruct (Req_dec (pL P j) 0) as [E|E]; [apply moved_dead; auto|]. pose proof (step_decrease P okstep c DT PT HL st j Hj) as D.
    assert (Hk : 0 < kap P c j). { unfold kap. pose proof (da_L P DT j). specialize (HK j Hj E). assert (0 < c (1 / pL P j) * pL P j) by (apply Rmult_lt_0_compat; lra). lra. }
    assert (0 <= moved P st j) by apply norm2_pos. pose proof (pow2_ge_0 (moved P st j)).
    assert (moved P st j ^ 2 <= 0) by (apply Rmult_le_reg_l with (kap P c j); auto; lra). nra. }
  split; auto. intros k. destruct (Nat.eq_dec k j) as [->|Hk]; [|apply step_other_row; auto]. apply minus_zero; try apply row_len. exact M0.
Qed.
Lemma still st j : (j < p)%nat -> obj P st <= obj P (rstep P st j) ->
  (live P j -> rdist P (fst st) (snd st) j <= 0) /\
  (forall k, row P (fst (rstep P st j)) k = row P (fst st) k) /\ (forall k, (k < p)%nat -> row P (pg P (snd (rstep P st j))) k = row P (pg P (snd st)) k).
Proof.
  intros Hj Ho. destruct HH as (H & H0 & HHb). destruct (still_rows st j Hj Ho) as [M0 R0].
  split; [|split; auto].
  - intros Hl. destruct st as [W Z]. unfold rdist. cbn [fst snd] in *. rewrite <- (R0 j).
    assert (Er := step_row P okstep c PT HL W Z j Hj Hl). rewrite Er.
    apply Rle_trans with (1 := upd_dist P okstep c DT PT ST HL W Z j Hj Hl). rewrite <- Er, (R0 j). unfold row. rewrite vminus_tab, tab_zero by (intros; ring). rewrite norm2_0. lra.
  - intros k Hk. apply minus_zero; try apply row_len. apply Rle_antisym; [|apply norm2_pos].
    apply Rle_trans with (1 := step_grad P okstep c PT HL H HHb st j k Hj Hk). rewrite M0. lra.
Qed.
Lemma pass_still ws : ws_ok P ws -> forall st, obj P st <= obj P (fold_left (rstep P) ws st) ->
  forall j, In j ws -> live P j -> rdist P (fst st) (snd st) j <= 0.
Proof.
  induction ws as [|a ws IH]; intros [ND Hws] st Ho j Hj Hl; [destruct Hj|]. cbn [fold_left] in Ho.
  assert (Ha : (a < p)%nat) by (apply Hws; left; auto). inversion ND as [|? ? Hna ND']; subst.
  assert (Hws' : forall j, In j ws -> (j < p)%nat) by (intros; apply Hws; right; auto).
  pose proof (steps_desc P okstep c DT PT HL ws Hws' (rstep P st a)) as D1. pose proof (step_desc P okstep c DT PT HL st a Ha) as D2.
  destruct (still st a Ha ltac:(lra)) as (S1 & S2 & S3). destruct Hj as [<-|Hj]; [auto|].
  assert (Q := IH (conj ND' Hws') (rstep P st a) ltac:(lra) j Hj Hl). unfold rdist in *. rewrite S2, S3 in Q by auto. exact Q.
Qed.
Lemma outer_strict tol K acc ws0 me m W Z st : 0 <= tol -> (1 <= ws0)%nat -> (1 <= me)%nat -> dead_zero P W -> ~ done P tol (W, Z) ->
  router P srt (Fin tol) K acc (Nat.min ws0 p) me (S m) W Z = Ret st -> obj P st < obj P (W, Z).
Proof.
  intros Htol Hw Hme HD Hnd E.
  assert (Hno : xle (rkmax P W Z (seq 0 p)) (Fin tol) = false).
  { apply not_true_is_false. intros E'. apply Hnd. exact (proj1 (kmax_le P W Z tol) E'). }
  assert (Hp : (1 <= p)%nat). { destruct (Nat.eq_dec p 0) as [E0|E0]; [|lia]. exfalso. apply Hnd. intros j Hj. lia. }
  destruct (sel_all P srt VS W Z (Nat.min ws0 p) ltac:(lia) ltac:(lia)) as (ws & Es & Hws & _ & HNZ & HTop).
  cbn [router] in E. rewrite Hno, Es in E. cbn [bind] in E.
  destruct (rinner _ _ _ _ _ _ _ _ _ _) as [[W' Z']|] eqn:Ei; cbn [bind] in E; [|discriminate].
  destruct (router_inv P okstep c srt VS DT PT HL (Fin tol) K acc (Nat.min ws0 p) me (Nat.le_min_r _ _) m _ _ st E) as (O1 & _).
  assert (O2 : obj P (W', Z') <= obj P (fold_left (rstep P) ws (W, Z))).
  { destruct me as [|m']; [lia|]. cbn [seq] in Ei. exact (inner_first P okstep c DT PT HL _ _ _ _ _ _ _ _ _ _ _ Hws Ei). }
  destruct (Rlt_le_dec (obj P st) (obj P (W, Z))) as [|Hge]; auto. exfalso. apply Hnd.
  assert (HQ := pass_still ws Hws (W, Z) ltac:(lra)). cbn [fst snd] in HQ.
  assert (HA : forall j, In j ws -> rdist P W Z j <= 0).
  { intros j Hj. destruct (Req_dec (pL P j) 0) as [Ed|Ed]; [|apply HQ; auto]. assert (Hjp := proj2 Hws j Hj). apply (dist_dead P okstep c DT PT ST); auto. apply dead_row; auto. }
  intros j Hj. cbn [fst snd]. destruct (rnz P W j) eqn:En.
  - specialize (HA j (HNZ j Hj En)). lra.
  - destruct (HTop j Hj En) as (k & Hk & _ & Hle). specialize (HA k Hk). lra.
Qed.
(** consecutive budgets *)
Lemma solve_strict tol K acc ws0 me m m' st st' : 0 <= tol -> (1 <= ws0)%nat -> (1 <= me)%nat -> (m < m')%nat ->
  rsolve P srt (Fin tol) K acc ws0 me m = Ret st -> ~ done P tol st -> rsolve P srt (Fin tol) K acc ws0 me m' = Ret st' -> obj P st' < obj P st.
Proof.
  intros Htol Hw Hme Hm E Hnd E'. destruct (solve_inv P okstep c srt VS DT PT HL _ _ _ _ _ _ _ E) as (_ & _ & HD).
  replace m' with (m + S (m' - m - 1))%nat in E' by lia. unfold rsolve in *. rewrite router_add, E in E'. cbn [bind] in E'. destruct st as [W Z]. cbn [fst snd] in *.
  exact (outer_strict tol K acc ws0 me _ W Z st' Htol Hw Hme HD Hnd E').
Qed.

(** if zero minimises the objective, runs stay at zero *)
Variable o0 : R.
Hypothesis Hmin : forall st, fitted P st -> o0 <= obj P st.
Definition null (st : rmat * rmat) : Prop := fitted P st /\ obj P st <= o0 /\ forall j, row P (fst st) j = repeat 0 T.
Lemma null_step st j : (j < p)%nat -> null st -> null (rstep P st j).
Proof using DT PT HL HK Hmin.
  intros Hj (Hf & Ho & Hz). assert (Hf' := step_fitted P st j Hj Hf). assert (D := step_desc P okstep c DT PT HL st j Hj).
  split; auto. split; [lra|]. destruct (still_rows st j Hj) as [_ R0]; [specialize (Hmin _ Hf'); lra|]. intros k. rewrite R0. auto.
Qed.
Lemma null_pass ws : (forall j, In j ws -> (j < p)%nat) -> forall st, null st -> null (fold_left (rstep P) ws st).
Proof using DT PT HL HK Hmin. induction ws as [|a ws IH]; intros Hws st Hst; auto. cbn [fold_left]. apply IH; [intros; apply Hws; right; auto|]. apply null_step; auto. apply Hws. left. auto. Qed.
Lemma null_inner tol kmax K acc ws : ws_ok P ws -> forall es W Z H st, null (W, Z) -> rinner P tol kmax K acc ws es W Z H = Ret st -> null st.
Proof using DT PT HL HK Hmin.
  intros [ND Hws]. induction es as [|e es IH]; intros W Z H st HN E; [injection E as <-; auto|].
  cbn [rinner] in E. assert (N1 := null_pass ws Hws (W, Z) HN). destruct (fold_left (rstep P) ws (W, Z)) as [W1 Z1].
  destruct (if acc then _ else _) as [[[W2 Z2] H2]|] eqn:E2; cbn [bind] in E; [|discriminate].
  assert (N2 : null (W2, Z2)).
  { destruct acc; [|injection E2 as <- <- <-; auto]. destruct (accel_cases P W1 Z1 H ws e K (W2, Z2) H2 ND Hws E2) as [_ [->|(_ & Ho & Hf & _)]]; auto.
    exfalso. specialize (Hmin _ Hf). destruct N1 as (_ & Ho1 & _). lra. }
  cbv zeta in E. destruct (_ && _); [|eapply IH; eauto]. destruct (length ws =? p)%nat; [destruct (xle _ _)|destruct (xlt _ _)]; try (eapply IH; eauto; fail); injection E as <-; auto.
Qed.
Lemma null_router tol K acc ws0 me : (ws0 <= p)%nat -> forall it W Z st, null (W, Z) -> router P srt tol K acc ws0 me it W Z = Ret st -> null st.
Proof using VS DT PT HL HK Hmin.
  intros H0. induction it as [|it IH]; intros W Z st HN E; [injection E as <-; auto|]. cbn [router] in E.
  destruct (xle _ _); [injection E as <-; auto|].
  destruct (rsel_ok P srt VS W Z ws0 H0) as (ws & Es & ND & Hws & HLn). rewrite Es in E. cbn [bind] in E.
  destruct (rinner _ _ _ _ _ _ _ _ _ _) as [[W' Z']|] eqn:Ei; cbn [bind] in E; [|discriminate].
  eapply IH; [|exact E]. eapply null_inner; [|exact HN|exact Ei]. split; auto.
Qed.
End Strict.

Section Fits.
Variables (srt : list xr -> list nat) (VS : valid_sort xops srt) (n p : nat) (Hn : (1 <= n)%nat).
Section One.
Variables (X : rmat) (y : nat -> R) (l : single_loss) (k : single_pen) (s : solver xr) (fit : nat -> res (result (list xr) (estimator_error xr))).
Hypotheses (HF : single_fit srt n p X y l k s fit) (Hy : targets_ok l n y) (HS : steps_ok Rlt k l n p X).
Local Notation objf := (objective (loss1 l n y) p X (pen1 k)).
Let PB := prob1 l k n p X y.
Lemma strict_single tol m m' w v' : s_tolerance s = Fin tol -> 0 <= tol -> (1 <= s_ws_start_size s)%nat -> (1 <= s_max_epochs s)%nat -> (m < m')%nat ->
  fit m = Ret (Ok (xv p w)) -> ~ stationary tol (loss1 l n y) p X (pen1 k) w -> fit m' = Ret (Ok v') ->
  exists w', v' = xv p w' /\ objf w' < objf w.
Proof.
  intros Et Htol Hw Hme Hm Ev Hst Ev'. assert (HS' := steps_lt_le n p k l X HS).
  destruct (inv1 srt VS n p Hn X y l k s fit HF Hy HS' m _ Ev) as (Hr & W & Z & Er & Ew & Hf & _ & _).
  destruct (inv1 srt VS n p Hn X y l k s fit HF Hy HS' m' _ Ev') as (_ & W' & Z' & Er' & -> & Hf' & _ & _). fold PB in Er, Er', Hf, Hf'.
  exists (fun j => W' j 0%nat). split; auto. assert (Ew' := xv_inj p _ _ Ew). rewrite (objf_ext srt n p X y l k s fit HF Hy HS' w (fun j => W j 0%nat)) by auto.
  assert (Q : obj PB (W', Z') < obj PB (W, Z)).
  { rewrite Et in Er, Er'. refine (solve_strict PB (okstep1 k) (c1 k) srt VS (prob1_data n p Hn l k X y Hy) (prob1_pen n p l k X y Hr) _ _ _ _ tol _ _ _ _ m m' (W, Z) (W', Z') Htol Hw Hme Hm Er _ Er').
    - unfold PB. rewrite prob1_p. apply prob1_steps; auto.
    - unfold PB. destruct l; apply (pen1_scores k Hr).
    - apply (prob1_lip srt n p Hn X y l k s fit HF Hy HS').
    - unfold PB at 1. rewrite prob1_p. intros j Hj Hl. apply (prob1_c srt n p Hn X y l k s fit HF HS'); auto.
    - intros Hd. apply Hst. apply (stationary_ext n p Hn l k X y (fun j => W j 0%nat)); auto. intros; symmetry; auto. eapply done_stationary; eauto. }
  unfold PB in Q. rewrite !prob1_obj in Q by auto. exact Q.
Qed.
End One.
Section ManyLasso.
Variables (T : nat) (X Y : rmat) (a : R) (s : solver xr) (fit : nat -> res (result (mat xr) (estimator_error xr))).
Hypotheses (HF : multi_fit srt n p T X Y (MtLassoPen a) s fit).
Local Notation objf := (objective_mt (quad_loss_mt n T Y) p T X (penT (MtLassoPen a))).
Let PB := probT (MtLassoPen a) n p T X Y.
Lemma objT_ext k W W' : (forall j t, (j < p)%nat -> (t < T)%nat -> W j t = W' j t) ->
  objective_mt (quad_loss_mt n T Y) p T X (penT k) W = objective_mt (quad_loss_mt n T Y) p T X (penT k) W'.
Proof using.
  intros E. unfold objective_mt. f_equal.
  - unfold quad_loss_mt. f_equal. apply Sum_ext. intros i _. apply Sum_ext. intros t Ht. f_equal. f_equal. apply Sum_ext. intros. rewrite E; auto.
  - apply Sum_ext. intros j Hj. f_equal. apply map_ext_in. intros t Ht. apply in_seq in Ht as [_ Ht]. apply E; auto.
Qed.
Lemma strict_multi tol m m' W v' : s_tolerance s = Fin tol -> 0 <= tol -> (1 <= s_ws_start_size s)%nat -> (1 <= s_max_epochs s)%nat -> (m < m')%nat ->
  fit m = Ret (Ok (xm p T W)) -> ~ stationary_mt tol (quad_loss_mt n T Y) p T X (penT (MtLassoPen a)) W -> fit m' = Ret (Ok v') ->
  exists W', v' = xm p T W' /\ objf W' < objf W.
Proof.
  intros Et Htol Hw Hme Hm Ev Hst Ev'. assert (Ha : 0 < a) by exact (proj1 (multi_run srt VS n p Hn T X Y (MtLassoPen a) s fit HF)).
  destruct (invT srt VS n p Hn T X Y (MtLassoPen a) s fit HF I m _ Ev) as (W0 & Z & Er & Ew & Hf & _ & _).
  destruct (invT srt VS n p Hn T X Y (MtLassoPen a) s fit HF I m' _ Ev') as (W' & Z' & Er' & -> & Hf' & _ & _). fold PB in Er, Er', Hf, Hf'.
  exists W'. split; auto. assert (Ew' := xm_inj p T _ _ Ew). rewrite (objT_ext (MtLassoPen a) W W0) by auto.
  assert (DT : data_theory PB) by exact (quad_data n p T X Y (proxT (MtLassoPen a)) (penT (MtLassoPen a)) (distT (MtLassoPen a)) Hn).
  assert (Q : obj PB (W', Z') < obj PB (W0, Z)).
  { rewrite Et in Er, Er'. refine (solve_strict PB (okstepT (MtLassoPen a)) (cT (MtLassoPen a)) srt VS DT (penT_theory (MtLassoPen a) T Ha) _ _ _ _ tol _ _ _ _ m m' (W0, Z) (W', Z') Htol Hw Hme Hm Er _ Er').
    - exact (probT_steps n p Hn (MtLassoPen a) T X Y I).
    - apply (l21_scores T a). lra.
    - exists (Hbound n p X). split; [apply Hbound_nonneg; auto|]. intros. apply (quad_lip n p T X Y); auto.
    - intros j Hj Hl. cbn [cT]. lra.
    - intros Hd. apply Hst. apply (stationary_mt_ext srt VS n p Hn T X Y a s fit HF W0); [intros; symmetry; auto|].
      apply (done_stationary_mt srt VS n p Hn T X Y a s fit HF W0 Z tol); auto. }
  unfold PB in Q. rewrite !probT_obj in Q by auto. exact Q.
Qed.
End ManyLasso.
End Fits.
