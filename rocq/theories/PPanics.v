(** When extrapolation is switched on and the working set has fewer coefficients than [K], a fit
    on finite data panics exactly when the zero model does not satisfy the stopping criterion. *)
From Coq Require Import List ZArith Bool Arith Reals Lra Lia.
From Verif Require Import Ops Arr XR SpecPen VecR MUtils MDatasets MDatafits MDatafitsMT MPenalties MBlockPenalties MCd MBcd MHyper MEstimators PBase RSum SpecLin SpecData SpecDatafit PDatafit PCalc PDataProps PLin PAnderson SpecSolve PStruct PNoPanic PLaws PRef PRefPen PSim PSubdiff PSubdiffBlock PSymProps PDescent PConv PTheory PFit SpecOpt PFitOpt PNull SpecNull PNullFit PNullMt SpecParams.
Import ListNotations.
Open Scope R_scope.

Section Ref.
Variables (P : problem) (srt : list xr -> list nat).
Hypothesis VS : valid_sort xops srt.
Local Notation p := (pp P). Local Notation T := (pT P).
Lemma xm_shaped r c M : shaped r c (xm r c M).
Proof using. unfold shaped, xm, mwf. cbn. repeat split; auto; [apply tab_length|]. apply Forall_forall. intros x Hx. apply in_map_iff in Hx as (i & <- & _). apply tab_length. Qed.
Lemma rinner_panics tol kmax K ws epochs : (length ws * T < K)%nat -> (K <= 10)%nat ->
  forall e0 W Z H, (e0 <= K < e0 + epochs)%nat -> rinner P tol kmax K true ws (seq e0 epochs) W Z H = Panic POob.
Proof using.
  intros HK H10. induction epochs as [|epochs IH]; intros e0 W Z H He; [lia|].
  cbn [seq rinner]. destruct (fold_left (rstep P) ws (W, Z)) as [W1 Z1]. unfold raccel. rewrite Nat.mod_small by lia.
  destruct (Nat.eqb_spec e0 K) as [->|Hne].
  - rewrite (anderson_oob xops _ K (length ws * T)) by (auto using xm_shaped). reflexivity.
  - cbn [bind]. replace ((0 <? e0)%nat && (e0 mod 10 =? 0)%nat) with false.
    + apply IH. lia.
    + symmetry. rewrite Nat.mod_small by lia. destruct e0; auto.
Qed.
Lemma rsolve_small tol K ws0 me m : (Nat.min ws0 p * T < K)%nat -> (K <= 10)%nat -> (K < me)%nat -> (1 <= m)%nat ->
  (forall j, (j < p)%nat -> rnz P (fun _ _ => 0) j = false) ->
  (done P tol (fun _ _ => 0, fun _ _ => 0) -> rsolve P srt (Fin tol) K true ws0 me m = Ret (fun _ _ => 0, fun _ _ => 0)) /\
  (~ done P tol (fun _ _ => 0, fun _ _ => 0) -> rsolve P srt (Fin tol) K true ws0 me m = Panic POob).
Proof using VS.
  intros HK H10 Hme Hm Hz. unfold rsolve. destruct m as [|m]; [lia|]. split; intros Hd.
  - exact (done_stops P srt tol K true (Nat.min ws0 p) me (fun _ _ => 0, fun _ _ => 0) (S m) Hd).
  - cbn [router]. assert (Hno : xle (rkmax P (fun _ _ => 0) (fun _ _ => 0) (seq 0 p)) (Fin tol) = false).
    { apply not_true_is_false. intros E'. apply Hd. exact (proj1 (kmax_le P _ _ tol) E'). }
    rewrite Hno.
    destruct (select_ok xops srt xr_laws (rnz P (fun _ _ => 0)) p (tab p (fun j => Fin (rdist P (fun _ _ => 0) (fun _ _ => 0) j))) (Nat.min ws0 p) VS (Nat.le_min_r _ _)) as (ws & Es & _ & HLn & _).
    { intros j Hj _. rewrite nth_tab by auto. reflexivity. }
    unfold rsel. rewrite Es. cbn [bind].
    assert (C : count (rnz P (fun _ _ => 0)) p = 0%nat).
    { rewrite (count_ext _ (fun _ => false)) by auto. clear. induction p as [|k IH]; [reflexivity|]. rewrite count_S, IH. reflexivity. }
    rewrite C in HLn. cbn [Nat.mul Nat.min] in HLn. rewrite Nat.max_l in HLn by lia.
    rewrite (rinner_panics (Fin tol) _ K ws me); [reflexivity|rewrite HLn; exact HK|exact H10|lia].
Qed.
End Ref.

Section Fits.
Variables (srt : list xr -> list nat) (VS : valid_sort xops srt) (n p : nat) (Hn : (1 <= n)%nat).
Section One.
Variables (X : rmat) (y : nat -> R) (l : single_loss) (k : single_pen) (s : solver xr) (fit : nat -> res (result (list xr) (estimator_error xr))) (tol : R).
Hypotheses (HF : single_fit srt n p X y l k s fit) (Et : s_tolerance s = Fin tol) (Ha : s_use_acceleration s = true)
  (HK : (Nat.min (s_ws_start_size s) p < s_K s)%nat) (H10 : (s_K s <= 10)%nat) (Hme : (s_K s < s_max_epochs s)%nat) (Hacc : accepted fit).
Lemma small_single m : (1 <= m)%nat ->
  (stationary tol (loss1 l n y) p X (pen1 k) (fun _ => 0) -> fit m = Ret (Ok (xv p (fun _ => 0)))) /\
  (~ stationary tol (loss1 l n y) p X (pen1 k) (fun _ => 0) -> fit m = Panic POob).
Proof.
  intros Hm. destruct (single_run srt VS n p Hn X y l k s fit HF) as [(e & He)|[Hr Hgo]]; [exfalso; apply (Hacc 0%nat e); auto|].
  rewrite Hgo. unfold go1, run1. rewrite Et, Ha.
  destruct (rsolve_small (prob1 l k n p X y) srt VS tol (s_K s) (s_ws_start_size s) (s_max_epochs s) m) as [S1 S2]; auto.
  { rewrite prob1_p, prob1_T. lia. }
  { intros j _. unfold rnz, row. rewrite tab_zero by auto. rewrite norm2_0, Reqb_refl. reflexivity. }
  assert (Q := done_stationary n p Hn l k X y (fun _ _ => 0) (fun _ _ => 0) tol Hr ltac:(apply start_fitted)). cbn beta in Q.
  split; intros H.
  - rewrite S1 by (apply Q; auto). reflexivity.
  - rewrite S2 by (rewrite Q; auto). reflexivity.
Qed.
End One.
(** squared loss: the condition in terms of the reported threshold *)
Lemma small_single_am X y k s fit tol am m : reported_alpha_max n p X y am -> single_fit srt n p X y Squared k s fit -> s_tolerance s = Fin tol -> 0 <= tol ->
  s_use_acceleration s = true -> (Nat.min (s_ws_start_size s) p < s_K s)%nat -> (s_K s <= 10)%nat -> (s_K s < s_max_epochs s)%nat -> accepted fit -> (1 <= m)%nat ->
  (am <= slope k + tol -> fit m = Ret (Ok (xv p (fun _ => 0)))) /\ (slope k + tol < am -> fit m = Panic POob).
Proof.
  intros Ham HF Et Htol Ha HK H10 Hme Hacc Hm. destruct (small_single X y Squared k s fit tol HF Et Ha HK H10 Hme Hacc m Hm) as [S1 S2].
  assert (Hr : pen1_range k). { destruct (single_run srt VS n p Hn X y Squared k s fit HF) as [(e & He)|[Hr _]]; auto. exfalso. apply (Hacc 0%nat e); auto. }
  assert (Q := zero_iff n p Hn X y k am Ham tol Hr Htol). split; intros H.
  - apply S1, Q, H.
  - apply S2. rewrite Q. lra.
Qed.
Lemma slope_mt_nonneg k : penT_range k -> 0 <= slope_mt k.
Proof using. clear. destruct k as [a|a r|a g]; cbn [penT_range slope_mt]; intros; lra. Qed.
Section Many.
Variables (T : nat) (X Y : rmat) (k : multi_pen) (s : solver xr) (fit : nat -> res (result (mat xr) (estimator_error xr))) (tol am : R).
Hypotheses (HF : multi_fit srt n p T X Y k s fit) (Ham : reported_alpha_max_mt n p T X Y am) (Et : s_tolerance s = Fin tol) (Htol : 0 <= tol) (Ha : s_use_acceleration s = true)
  (HK : (Nat.min (s_ws_start_size s) p * T < s_K s)%nat) (H10 : (s_K s <= 10)%nat) (Hme : (s_K s < s_max_epochs s)%nat) (Hacc : accepted fit).
Lemma done_mt_am : penT_range k -> (done (probT k n p T X Y) tol (fun _ _ => 0, fun _ _ => 0) <-> zero_level k am <= slope_mt k + tol).
Proof using HF Ham Hn Htol.
  intros Hr. assert (Hs := slope_mt_nonneg k Hr). destruct (largest_div n p (xty_norm n T X Y) Hn) as [H1 H2].
  assert (Eam := am_value_mt n p T X Y am Hn Ham). rewrite <- Eam in H1, H2. assert (HN := INR_npos n Hn).
  assert (Ham0 : 0 <= am). { rewrite Eam. apply Rmult_le_pos; [|left; apply Rinv_0_lt_compat; auto]. destruct (maxabs_largest p (xty_norm n T X Y)) as [_ [(j & _ & E)|[_ E]]]; [pose proof (Rabs_pos (xty_norm n T X Y j)); simpl in E; lra|lra]. }
  assert (HD : forall j, (j < p)%nat -> rdist (probT k n p T X Y) (fun _ _ => 0) (fun _ _ => 0) j = Rmax 0 (zero_level k (Rabs (xty_norm n T X Y j) / INR n) - slope_mt k)).
  { intros j Hj. rewrite probT_dist; auto; [|apply start_fitted]. rewrite tab_zero by auto. rewrite (xty_norm_abs n T X Y j). destruct k as [a|a r|a g].
    - rewrite distT_0 by exact I. rewrite gradT0 by auto. reflexivity.
    - cbn [distT]. unfold r_bl1l2_score. rewrite norm2_0, Reqb_refl, gradT0 by auto. cbn [zero_level slope_mt]. reflexivity.
    - rewrite distT_0 by exact I. rewrite gradT0 by auto. reflexivity. }
  assert (Mono : forall a b, 0 <= a <= b -> zero_level k a <= zero_level k b) by (intros a b Hab; destruct k; cbn [zero_level]; try lra; apply pow_incr; auto).
  unfold done. cbn [fst snd]. split.
  - intros H. destruct (Req_dec am 0) as [E0|E0].
    + rewrite E0. replace (zero_level k 0) with 0 by (destruct k; cbn [zero_level]; ring). lra.
    + destruct H2 as (j & Hj & E); [lra|]. assert (Q := H j Hj). rewrite HD, E in Q by auto. pose proof (Rmax_r 0 (zero_level k am - slope_mt k)). lra.
  - intros H j Hj. rewrite HD by auto. apply Rmax_lub; [lra|]. assert (zero_level k (Rabs (xty_norm n T X Y j) / INR n) <= zero_level k am); [|lra].
    apply Mono. split; auto. apply Rmult_le_pos; [apply Rabs_pos|left; apply Rinv_0_lt_compat; auto].
Qed.
Lemma small_multi m : (1 <= m)%nat ->
  (zero_level k am <= slope_mt k + tol -> fit m = Ret (Ok (xm p T (fun _ _ => 0)))) /\ (slope_mt k + tol < zero_level k am -> fit m = Panic POob).
Proof.
  intros Hm. destruct (multi_run srt VS n p Hn T X Y k s fit HF) as [Hr [(e & He)|Hgo]]; [exfalso; apply (Hacc 0%nat e); auto|].
  rewrite Hgo. unfold goT, runT. rewrite Et, Ha.
  destruct (rsolve_small (probT k n p T X Y) srt VS tol (s_K s) (s_ws_start_size s) (s_max_epochs s) m) as [S1 S2]; auto.
  { intros j _. unfold rnz, row. rewrite tab_zero by auto. rewrite norm2_0, Reqb_refl. reflexivity. }
  assert (Q := done_mt_am Hr). split; intros H.
  - rewrite S1 by (apply Q; auto). reflexivity.
  - rewrite S2 by (rewrite Q; lra). reflexivity.
Qed.
End Many.

(** estimators whose parameters are the defaults except for the penalty *)
Lemma check_single k pr m : otherwise_default pr -> carries k pr -> pen1_range k -> match k with McpPen _ g => 1 <= g | _ => True end ->
  forall DM (run : params xr -> dataset DM xr -> res (list xr)) ds e,
  fit_unchecked (match k with LassoPen _ => lasso_check_ref xops | EnetPen _ _ => elastic_net_check_ref xops | McpPen _ _ => mcp_check_ref xops end) run (set_max_iterations m pr) ds <> Ret (Err e).
Proof using.
  clear. intros (Dt & _ & _ & Dw & DK & _) Hc Hr Hg DM run ds e. unfold fit_unchecked.
  assert (E : (match k with LassoPen _ => lasso_check_ref xops | EnetPen _ _ => elastic_net_check_ref xops | McpPen _ _ => mcp_check_ref xops end) (set_max_iterations m pr) = Ok (set_max_iterations m pr)).
  { destruct k as [a|a r|a g]; cbn [carries pen1_range] in Hc, Hr; [|destruct Hc as [Hc Hs]|destruct Hc as [Hc Hs]];
      unfold lasso_check_ref, elastic_net_check_ref, mcp_check_ref, set_max_iterations; cbn [p_alpha p_shape p_tolerance p_K p_ws_start_size]; rewrite Dt, Dw, DK, Hc, ?Hs;
      cbn [fisneg flt f1 f0 xops xisneg xlt Nat.leb]; rewrite !(proj2 (Rltb_false _ _)) by lra; reflexivity. }
  destruct k; rewrite E; destruct (run _ _); discriminate.
Qed.
Lemma check_multi k pr m : otherwise_default pr -> carries_mt k pr -> penT_range k ->
  forall DM (run : params xr -> dataset DM xr -> res (mat xr)) ds e,
  fit_unchecked (match k with MtLassoPen _ => mt_lasso_check_ref xops | MtEnetPen _ _ => mt_elastic_net_check_ref xops | BlockMcpPen _ _ => block_mcp_check_ref xops end) run (set_max_iterations m pr) ds <> Ret (Err e).
Proof using.
  clear. intros (Dt & _ & _ & Dw & DK & _) Hc Hr DM run ds e. unfold fit_unchecked.
  assert (E : (match k with MtLassoPen _ => mt_lasso_check_ref xops | MtEnetPen _ _ => mt_elastic_net_check_ref xops | BlockMcpPen _ _ => block_mcp_check_ref xops end) (set_max_iterations m pr) = Ok (set_max_iterations m pr)).
  { destruct k as [a|a r|a g]; cbn [carries_mt penT_range] in Hc, Hr; [|destruct Hc as [Hc Hs]|destruct Hc as [Hc Hs]];
      unfold mt_lasso_check_ref, mt_elastic_net_check_ref, block_mcp_check_ref, set_max_iterations; cbn [p_alpha p_shape p_tolerance p_K p_ws_start_size]; rewrite Dt, Dw, DK, Hc, ?Hs;
      cbn [fisneg flt f1 f0 xops xisneg xlt Nat.leb]; rewrite !(proj2 (Rltb_false _ _)) by lra; reflexivity. }
  destruct k; rewrite E; destruct (run _ _); discriminate.
Qed.
Lemma default_single X y t k pr am : otherwise_default pr -> carries k pr -> pen1_range k -> match k with McpPen _ g => 1 <= g | _ => True end ->
  single_target_of n y t -> (p < 5)%nat -> reported_alpha_max n p X y am ->
  (am <= slope k + 1/1000000 -> estimator_dense srt k pr (Dataset (xm n p X) t) = Ret (Ok (xv p (fun _ => 0)))) /\
  (slope k + 1/1000000 < am -> estimator_dense srt k pr (Dataset (xm n p X) t) = Panic POob).
Proof.
  intros D Hc Hr Hg Ht Hp Ham. assert (D' := D). destruct D' as (Dt & Dm & De & Dw & DK & Da & _).
  assert (Ep : set_max_iterations 50 pr = pr) by (destruct pr; cbn in *; subst; reflexivity).
  assert (Q := fun H1 H2 H3 H4 H5 H6 H7 H8 H9 => small_single_am X y k (settings pr) (fun m => estimator_dense srt k (set_max_iterations m pr) (Dataset (xm n p X) t)) (1/1000000) am 50 Ham H1 H2 H3 H4 H5 H6 H7 H8 H9).
  cbn beta in Q. rewrite Ep in Q. apply Q; auto; try solve [try unfold settings; cbn [s_tolerance s_use_acceleration s_ws_start_size s_K s_max_epochs]; rewrite ?DK, ?Dw, ?De; auto; first [lra|lia]].
  - apply (fit_dense srt n p X y k pr t); auto.
  - intros m e. destruct k; refine (check_single _ pr m D Hc Hr Hg _ _ _ e).
Qed.
Lemma default_multi T X Y t k pr am : otherwise_default pr -> carries_mt k pr -> penT_range k -> multi_target_of n T Y t -> (p * T < 5)%nat -> (p <= 10)%nat -> reported_alpha_max_mt n p T X Y am ->
  (zero_level k am <= slope_mt k + 1/1000000 -> mt_estimator_dense srt k pr (Dataset (xm n p X) t) = Ret (Ok (xm p T (fun _ _ => 0)))) /\
  (slope_mt k + 1/1000000 < zero_level k am -> mt_estimator_dense srt k pr (Dataset (xm n p X) t) = Panic POob).
Proof.
  intros D Hc Hr Ht Hp H10 Ham. assert (D' := D). destruct D' as (Dt & Dm & De & Dw & DK & Da & _).
  assert (Ep : set_max_iterations 50 pr = pr) by (destruct pr; cbn in *; subst; reflexivity).
  assert (Q := fun H1 H2 H3 H4 H5 H6 H7 H8 => small_multi T X Y k (settings pr) (fun m => mt_estimator_dense srt k (set_max_iterations m pr) (Dataset (xm n p X) t)) (1/1000000) am H1 Ham H2 H3 H4 H5 H6 H7 H8 50%nat).
  cbn beta in Q. rewrite Ep in Q. apply Q; auto; try solve [try unfold settings; cbn [s_tolerance s_use_acceleration s_ws_start_size s_K s_max_epochs]; rewrite ?DK, ?Dw, ?De; auto; first [lra|lia]].
  - apply (mt_fit_dense srt n p T X Y k pr t); auto.
  - intros m e. destruct k; refine (check_multi _ pr m D Hc Hr _ _ _ e).
Qed.
End Fits.
