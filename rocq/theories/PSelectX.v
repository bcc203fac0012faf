(** How many features a run can select: exact arithmetic. *)
From Coq Require Import List ZArith Bool Arith Lia Reals Lra.
From Verif Require Import Ops Arr MUtils MDatasets MDatafits MDatafitsMT MPenalties MBlockPenalties MCd MBcd MHyper MEstimators XR SpecPen RSum VecR SpecLin SpecData SpecSolve SpecOpt SpecSelect PBase PLaws PNoPanic PRef PRefPen PRefCD PRefBCD PDatafit PLin PAnderson PStruct PData PConv PFitOpt PSelect.
Import ListNotations.
Local Open Scope nat_scope.

Fixpoint capacity2 (ws0 it c : nat) : nat := match it with O => c | S it => capacity2 ws0 it (Nat.max c (Nat.max ws0 (2 * c))) end.
Lemma capacity2_mono ws0 it : forall a b, a <= b -> capacity2 ws0 it a <= capacity2 ws0 it b.
Proof. induction it; intros a b H; cbn [capacity2]; auto. apply IHit. lia. Qed.
Lemma capacity2_ge ws0 it : forall c, c <= capacity2 ws0 it c.
Proof. induction it; intros c; cbn [capacity2]; auto. eapply Nat.le_trans; [|apply IHit]. lia. Qed.
Lemma capacity2_big ws0 it : forall c, ws0 <= 2 * c -> capacity2 ws0 it c = 2 ^ it * c.
Proof. induction it; intros c H; cbn [capacity2]; [cbn; lia|]. rewrite IHit by lia. rewrite Nat.pow_succ_r'. replace (Nat.max c (Nat.max ws0 (2 * c))) with (2 * c) by lia. lia. Qed.
Lemma capacity2_closed ws0 it : capacity2 ws0 it 0 = budget 2 ws0 it.
Proof. destruct it; auto. cbn [capacity2 budget]. rewrite capacity2_big by lia. lia. Qed.

Section Ref.
Variable (P : problem) (srt : list xr -> list nat) (VS : valid_sort xops srt).
Local Notation p := (pp P). Local Notation T := (pT P).
Definition outside (ws : list nat) (W : rmat) : Prop := forall j, ~ In j ws -> rnz P W j = false.
Lemma zero_rnz W j : (forall t, t < T -> W j t = 0%R) -> rnz P W j = false.
Proof using.
  intros H. unfold rnz. apply negb_false_iff, Reqb_spec. unfold row. replace (tab T (W j)) with (repeat 0%R T); [apply norm2_0|].
  apply list_eq_nth; [rewrite repeat_length, tab_length; auto|]. intros k d Hk. rewrite repeat_length in Hk. rewrite nth_tab by auto. rewrite H by auto. clear - Hk. revert k Hk. induction T as [|T' IH]; intros [|k] Hk; cbn; auto; try lia. apply IH. lia.
Qed.
Lemma rnz_ext W W' j : W j = W' j -> rnz P W j = rnz P W' j.
Proof using. unfold rnz, row. intros ->. auto. Qed.
Lemma steps_outside ws js : incl js ws -> forall W Z, outside ws W -> outside ws (fst (fold_left (rstep P) js (W, Z))).
Proof using.
  induction js as [|j js IH]; intros HI W Z HO; auto. cbn [fold_left]. destruct (rstep P (W, Z) j) as [W1 Z1] eqn:E. apply IH; [intros x Hx; apply HI; right; auto|].
  unfold rstep in E. destruct (Reqb _ _); injection E as <- <-; auto. intros i Hi. rewrite (rnz_ext _ W); auto. cbv beta.
  destruct (i =? j) eqn:B; auto. apply Nat.eqb_eq in B. subst. exfalso. apply Hi, HI. left. auto.
Qed.
Lemma pos_out i ws : ~ In i ws -> pos i ws = None.
Proof using. induction ws as [|a ws IH]; intros H; auto. cbn [pos]. destruct (i =? a) eqn:B; [apply Nat.eqb_eq in B; subst; exfalso; apply H; left; auto|]. rewrite IH; auto. intros Hi. apply H. right. auto. Qed.
Lemma accel_outside W Z H ws e K W' Z' H' : outside ws W -> raccel P W Z H ws e K = Ret (W', Z', H') -> outside ws W'.
Proof using.
  intros HO. unfold raccel. destruct (_ =? K); [|intros [= <- <- <-]; auto]. destruct (anderson_point _ _ _ _) as [[pt|]|]; cbn [bind]; [|intros [= <- <- <-]; auto|discriminate].
  destruct (Rltb _ _); intros [= <- <- <-]; auto. intros j Hj. apply zero_rnz. intros t _. unfold rscatter. rewrite pos_out by auto. auto.
Qed.
Lemma inner_outside tol km K acc ws : forall es W Z H st, outside ws W -> rinner P tol km K acc ws es W Z H = Ret st -> outside ws (fst st).
Proof using.
  induction es as [|e es IH]; intros W Z H st HO E; cbn [rinner] in E; [injection E as <-; auto|].
  pose proof (steps_outside ws ws (incl_refl ws) W Z HO) as H1. destruct (fold_left (rstep P) ws (W, Z)) as [W1 Z1]. cbn [fst] in H1.
  destruct (if acc then _ else _) as [[[W2 Z2] H2]|] eqn:E2; cbn [bind] in E; [|discriminate].
  assert (HO2 : outside ws W2) by (destruct acc; [eapply accel_outside; eauto|injection E2 as <- <- <-; auto]).
  destruct (_ && _); [|eauto]. destruct (_ =? _); [destruct (xle _ _)|destruct (xlt _ _)]; eauto; injection E as <-; auto.
Qed.
Lemma outside_count ws W : outside ws W -> count (rnz P W) p <= length ws.
Proof using.
  intros H. unfold count. apply NoDup_incl_length; [apply NoDup_filter, seq_NoDup|]. intros j Hj. apply filter_In in Hj as [_ Hj].
  destruct (in_dec Nat.eq_dec j ws); auto. rewrite H in Hj; auto. discriminate.
Qed.
Lemma router_count tol K acc ws0 me : ws0 <= p -> forall it W Z st, (forall j, p <= j -> rnz P W j = false) -> router P srt tol K acc ws0 me it W Z = Ret st ->
  count (rnz P (fst st)) p <= capacity2 ws0 it (count (rnz P W) p).
Proof using VS.
  intros H0. induction it as [|it IH]; intros W Z st HB E; cbn [router] in E; [injection E as <-; auto|]. cbn [capacity2].
  destruct (xle _ _); [injection E as <-; eapply Nat.le_trans; [apply capacity2_ge|apply capacity2_mono; cbn; lia]|].
  set (kkt := tab p (fun j => Fin (rdist P W Z j))).
  assert (HN : forall j, j < p -> rnz P W j = false -> fisnan xops (nth j kkt (Fin 0%R)) = false) by (intros; unfold kkt; rewrite nth_tab by auto; reflexivity).
  destruct (select_ok xops srt xr_laws (rnz P W) p kkt ws0 VS H0 HN) as (ws & Ew & (ND & IN) & HLen & _).
  assert (HNZ := select_nonzero xops srt xr_laws (rnz P W) p kkt ws0 ws (length ws) VS H0 HN ltac:(intros; unfold kkt; rewrite nth_tab by auto; reflexivity) Ew).
  unfold rsel in E. fold kkt in E. rewrite Ew in E. cbn [bind] in E.
  destruct (rinner _ _ _ _ _ _ _ _ _ _) as [[W' Z']|] eqn:E1; cbn [bind] in E; [|discriminate].
  assert (HO : outside ws W) by (intros j Hj; destruct (rnz P W j) eqn:B; auto; destruct (le_lt_dec p j); [rewrite HB in B by auto; discriminate|exfalso; apply Hj; auto]).
  pose proof (inner_outside _ _ _ _ _ _ _ _ _ _ HO E1) as HO'. cbn [fst] in HO'.
  eapply IH in E; [eapply Nat.le_trans; [exact E|]; apply capacity2_mono; pose proof (outside_count ws W' HO'); lia|].
  intros j Hj. apply HO'. intros Hi. apply IN in Hi. lia.
Qed.
Lemma rsolve_count tol K acc ws0 me it st : rsolve P srt tol K acc ws0 me it = Ret st -> count (rnz P (fst st)) p <= budget 2 ws0 it.
Proof using VS.
  unfold rsolve. intros E. apply router_count in E; [|lia|intros; apply zero_rnz; auto].
  assert (C : count (rnz P (fun _ _ => 0%R)) p = 0).
  { unfold count. replace (filter _ _) with (@nil nat); auto. symmetry. induction (seq 0 p) as [|a l IH]; auto. cbn [filter]. rewrite zero_rnz by auto. auto. }
  rewrite C, capacity2_closed in E. eapply Nat.le_trans; [exact E|]. unfold budget. destruct it; auto. apply Nat.mul_le_mono_r. lia.
Qed.
End Ref.

Section Fits.
Variables (n p : nat) (Hn : 1 <= n) (srt : list xr -> list nat) (VS : valid_sort xops srt).
Lemma select_single X y l k s fit m v : single_fit srt n p X y l k s fit -> fit m = Ret (Ok v) -> selected xops v <= budget 2 (s_ws_start_size s) m.
Proof using Hn VS.
  intros HF Ev. destruct (single_run srt VS n p Hn X y l k s fit HF) as [Hrej|[Hr Hgo]]; [exfalso; eapply not_rejected; eauto|].
  rewrite Hgo in Ev. apply go1_ret in Ev as ([W Z] & Er & ->). apply (rsolve_count _ srt VS) in Er. cbn [fst] in Er.
  eapply Nat.le_trans; [|exact Er]. unfold selected. match goal with |- length (filter ?f ?l) <= _ => change (length (filter f l)) with (cnt f l) end. rewrite <- places_cnt. unfold places, count, PRefCD.vW. cbn [fst]. rewrite xv_length.
  rewrite prob1_p. apply Nat.eq_le_incl. f_equal. apply filter_ext_in. intros j Hj. apply in_seq in Hj. unfold xv.
  rewrite nth_error_tab by lia. change (f0 xops) with (Fin 0). rewrite feq_fin. unfold rnz. f_equal. unfold row. rewrite prob1_T. cbn. rewrite norm2_1. destruct (Reqb (W j 0%nat) 0) eqn:B; rb; [rewrite B, Rabs_R0; symmetry; apply Reqb_refl|symmetry; apply Reqb_false; intros Q; apply B; destruct (Req_dec (W j 0%nat) 0); auto; apply Rabs_no_R0 in H; contradiction].
Qed.
Lemma select_multi T X Y k s fit m V : multi_fit srt n p T X Y k s fit -> fit m = Ret (Ok V) -> selected_rows xops V <= budget 2 (s_ws_start_size s) m.
Proof using Hn VS.
  intros HF Ev. destruct (multi_run srt VS n p Hn T X Y k s fit HF) as [_ [Hrej|Hg]]; [exfalso; eapply not_rejected; eauto|].
  rewrite Hg in Ev. apply goT_ret in Ev as ([W Z] & Er & ->). apply (rsolve_count _ srt VS) in Er. cbn [fst] in Er.
  eapply Nat.le_trans; [|exact Er]. unfold selected_rows. match goal with |- length (filter ?f ?l) <= _ => change (length (filter f l)) with (cnt f l) end. rewrite <- places_cnt. unfold places, count. unfold xm, tabm. cbn [mrows]. rewrite tab_length.
  change (pp (probT k n p T X Y)) with p. apply Nat.eq_le_incl. f_equal. apply filter_ext_in. intros j Hj. apply in_seq in Hj.
  cbn [tabm mrows]. rewrite nth_error_tab by lia. unfold rnz, row. change (pT (probT k n p T X Y)) with T. apply (anynz_xv T (W j)).
Qed.
End Fits.
