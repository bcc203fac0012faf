(** Proofs of C18, C38 and C45. *)
From Coq Require Import List ZArith Bool Arith Reals Lra Lia Permutation.
From Verif Require Import Ops Arr XR SpecPen VecR MUtils MDatasets MDatafits MDatafitsMT MPenalties MBlockPenalties MCd MBcd MHyper MEstimators PBase RSum SpecLin PLin SpecData SpecSym PData PDatafit PDataProps SpecSolve PNoPanic PLaws PRef PRefCD PRefBCD PSubdiff PSubdiffBlock PProx PRefPen PSim PFit PSym PStruct.
Import ListNotations.
Open Scope R_scope.

(** *** validated hyperparameters *)
Lemma isneg_fin a : fisneg xops (Fin a) = false -> 0 <= a.
Proof. cbn [fisneg xops xisneg]. intros H. rb. lra. Qed.
Lemma lasso_ok pr c a : lasso_check_ref xops pr = Ok c -> p_alpha pr = Fin a -> c = pr /\ 0 <= a.
Proof.
  unfold lasso_check_ref. intros H E. rewrite E in H. destruct (fisneg xops (Fin a)) eqn:E1; [discriminate|]. apply isneg_fin in E1.
  destruct (fisneg _ _); [discriminate|]. destruct (p_K pr <=? 0)%nat; [discriminate|]. destruct (_ <=? 0)%nat; [discriminate|]. injection H as <-. auto.
Qed.
Lemma enet_ok pr c a r : elastic_net_check_ref xops pr = Ok c -> p_alpha pr = Fin a -> p_shape pr = Fin r -> c = pr /\ 0 <= a /\ 0 <= r <= 1.
Proof.
  unfold elastic_net_check_ref. intros H E E'. rewrite E, E' in H. destruct (fisneg xops (Fin a)) eqn:E1; [discriminate|]. apply isneg_fin in E1.
  destruct (_ || _) eqn:E2; [discriminate|]. apply orb_false_iff in E2 as [E2 E3]. cbn [flt f0 f1 xops xlt] in E2, E3. rb.
  destruct (fisneg _ _); [discriminate|]. destruct (p_K pr <=? 0)%nat; [discriminate|]. destruct (_ <=? 0)%nat; [discriminate|]. injection H as <-. repeat split; auto; lra.
Qed.
Lemma mcp_ok pr c a g : mcp_check_ref xops pr = Ok c -> p_alpha pr = Fin a -> p_shape pr = Fin g -> c = pr /\ 0 <= a /\ 1 <= g.
Proof.
  unfold mcp_check_ref. intros H E E'. rewrite E, E' in H. destruct (fisneg xops (Fin a)) eqn:E1; [discriminate|]. apply isneg_fin in E1.
  destruct (flt _ _ _) eqn:E2; [discriminate|]. cbn [flt f0 f1 xops xlt] in E2. rb.
  destruct (fisneg _ _); [discriminate|]. destruct (p_K pr <=? 0)%nat; [discriminate|]. destruct (_ <=? 0)%nat; [discriminate|]. injection H as <-. repeat split; auto; lra.
Qed.
Lemma mt_lasso_ok pr c a : mt_lasso_check_ref xops pr = Ok c -> p_alpha pr = Fin a -> c = pr /\ 0 <= a.
Proof. apply lasso_ok. Qed.
Lemma mt_enet_ok pr c a r : mt_elastic_net_check_ref xops pr = Ok c -> p_alpha pr = Fin a -> p_shape pr = Fin r -> c = pr /\ 0 <= a /\ 0 <= r <= 1.
Proof. apply enet_ok. Qed.
Lemma bmcp_ok pr c a : block_mcp_check_ref xops pr = Ok c -> p_alpha pr = Fin a -> c = pr /\ 0 <= a.
Proof. apply lasso_ok. Qed.

Lemma fit_eq {DM DM' A} (chk : params xr -> result (params xr) (estimator_error xr)) (fit : params xr -> dataset DM xr -> res A)
    (fit' : params xr -> dataset DM' xr -> res A) pr ds ds' :
  (forall c, chk pr = Ok c -> fit c ds = fit' c ds') -> fit_unchecked chk fit pr ds = fit_unchecked chk fit' pr ds'.
Proof. intros H. unfold fit_unchecked. destruct (chk pr) as [c|e]; auto. rewrite (H c) by auto. auto. Qed.

(** *** C18 *)
Section C18.
Context (srt : list xr -> list nat) (VS : valid_sort xops srt) (n p : nat) (Hn : (1 <= n)%nat) (E : nat -> list (nat * R)) (c : csc xr)
  (HC : csc_of n p E c) (HR : no_repeats p E).
Lemma c18 y t pr a r : single_target_of n y t -> p_alpha pr = Fin a -> p_shape pr = Fin r ->
  let X := xm n p (entry E) in
  fit_unchecked (lasso_check_ref xops) (lasso_fit_sparse xops srt) pr (Dataset c t) = fit_unchecked (lasso_check_ref xops) (lasso_fit_dense xops srt) pr (Dataset X t) /\
  fit_unchecked (elastic_net_check_ref xops) (elastic_net_fit_sparse xops srt) pr (Dataset c t) = fit_unchecked (elastic_net_check_ref xops) (elastic_net_fit_dense xops srt) pr (Dataset X t) /\
  fit_unchecked (mcp_check_ref xops) (mcp_fit_sparse xops srt) pr (Dataset c t) = fit_unchecked (mcp_check_ref xops) (mcp_fit_dense xops srt) pr (Dataset X t).
Proof.
  intros Ht Ea Er X. repeat split; apply fit_eq; intros c' Hc.
  - apply (lasso_ok _ _ a) in Hc as [-> Ha]; auto. unfold lasso_fit_sparse, lasso_fit_dense, X. rewrite Ea.
    rewrite (quad_sparse_fit srt VS n p Hn _ _ _ _ _ (l1_pen_ok a) y t Ht) with (E := E) by auto. symmetry. apply (quad_dense_fit srt VS n p Hn _ _ _ _ _ (l1_pen_ok a) y t Ht).
  - apply (enet_ok _ _ a r) in Hc as (-> & Ha & Hr); auto. unfold elastic_net_fit_sparse, elastic_net_fit_dense, X. rewrite Ea, Er.
    rewrite (quad_sparse_fit srt VS n p Hn _ _ _ _ _ (l1l2_pen_ok a r Ha Hr) y t Ht) with (E := E) by auto. symmetry. apply (quad_dense_fit srt VS n p Hn _ _ _ _ _ (l1l2_pen_ok a r Ha Hr) y t Ht).
  - apply (mcp_ok _ _ a r) in Hc as (-> & Ha & Hr); auto. unfold mcp_fit_sparse, mcp_fit_dense, X. rewrite Ea, Er. assert (Hr' : 0 < r) by lra.
    rewrite (quad_sparse_fit srt VS n p Hn _ _ _ _ _ (mcp_pen_ok a r Hr') y t Ht) with (E := E) by auto. symmetry. apply (quad_dense_fit srt VS n p Hn _ _ _ _ _ (mcp_pen_ok a r Hr') y t Ht).
Qed.
Lemma c18_logistic y t (s : solver xr) d d' a r g : single_target_of n y t -> 0 <= a -> 0 <= r <= 1 -> 0 < g ->
  let X := xm n p (entry E) in
  solve xops srt (sparse_dm xops) (log_sparse xops) (l1_penalty xops) s (Dataset c t) d (L1 (Fin a)) = solve xops srt (dense_dm xops) (log_dense xops) (l1_penalty xops) s (Dataset X t) d' (L1 (Fin a)) /\
  solve xops srt (sparse_dm xops) (log_sparse xops) (l1l2_penalty xops) s (Dataset c t) d (L1PlusL2 (Fin a) (Fin r)) = solve xops srt (dense_dm xops) (log_dense xops) (l1l2_penalty xops) s (Dataset X t) d' (L1PlusL2 (Fin a) (Fin r)) /\
  solve xops srt (sparse_dm xops) (log_sparse xops) (mcp_penalty xops) s (Dataset c t) d (MCP (Fin a) (Fin g)) = solve xops srt (dense_dm xops) (log_dense xops) (mcp_penalty xops) s (Dataset X t) d' (MCP (Fin a) (Fin g)).
Proof.
  intros Ht Ha Hr Hg X. repeat split; unfold solve, X.
  - rewrite (log_sparse_fit srt VS n p Hn _ _ _ _ _ (l1_pen_ok a) y t Ht) with (E := E) by auto. symmetry. apply (log_dense_fit srt VS n p Hn _ _ _ _ _ (l1_pen_ok a) y t Ht).
  - rewrite (log_sparse_fit srt VS n p Hn _ _ _ _ _ (l1l2_pen_ok a r Ha Hr) y t Ht) with (E := E) by auto. symmetry. apply (log_dense_fit srt VS n p Hn _ _ _ _ _ (l1l2_pen_ok a r Ha Hr) y t Ht).
  - rewrite (log_sparse_fit srt VS n p Hn _ _ _ _ _ (mcp_pen_ok a g Hg) y t Ht) with (E := E) by auto. symmetry. apply (log_dense_fit srt VS n p Hn _ _ _ _ _ (mcp_pen_ok a g Hg) y t Ht).
Qed.
Lemma c18_mt T Y t pr a r : multi_target_of n T Y t -> p_alpha pr = Fin a -> p_shape pr = Fin r ->
  let X := xm n p (entry E) in
  (0 < a -> fit_unchecked (mt_lasso_check_ref xops) (mt_lasso_fit_sparse xops srt) pr (Dataset c t) = fit_unchecked (mt_lasso_check_ref xops) (mt_lasso_fit_dense xops srt) pr (Dataset X t)) /\
  (0 < a * r -> fit_unchecked (mt_elastic_net_check_ref xops) (mt_elastic_net_fit_sparse xops srt) pr (Dataset c t) = fit_unchecked (mt_elastic_net_check_ref xops) (mt_elastic_net_fit_dense xops srt) pr (Dataset X t)) /\
  (0 < r -> fit_unchecked (block_mcp_check_ref xops) (block_mcp_fit_sparse xops srt) pr (Dataset c t) = fit_unchecked (block_mcp_check_ref xops) (block_mcp_fit_dense xops srt) pr (Dataset X t)).
Proof.
  intros Ht Ea Er X. repeat split; intros Hp; apply fit_eq; intros c' Hc.
  - apply (mt_lasso_ok _ _ a) in Hc as [-> Ha]; auto. unfold mt_lasso_fit_sparse, mt_lasso_fit_dense, X. rewrite Ea.
    rewrite (mt_sparse_fit srt VS n p Hn T _ _ _ _ _ (l21_pen_ok T a Hp) Y t Ht) with (E := E) by auto. symmetry. apply (mt_dense_fit srt VS n p Hn T _ _ _ _ _ (l21_pen_ok T a Hp) Y t Ht).
  - apply (mt_enet_ok _ _ a r) in Hc as (-> & Ha & Hr); auto. unfold mt_elastic_net_fit_sparse, mt_elastic_net_fit_dense, X. rewrite Ea, Er.
    rewrite (mt_sparse_fit srt VS n p Hn T _ _ _ _ _ (bl1l2_pen_ok T a r Ha Hr Hp) Y t Ht) with (E := E) by auto. symmetry. apply (mt_dense_fit srt VS n p Hn T _ _ _ _ _ (bl1l2_pen_ok T a r Ha Hr Hp) Y t Ht).
  - apply (bmcp_ok _ _ a) in Hc as (-> & Ha); auto. unfold block_mcp_fit_sparse, block_mcp_fit_dense, X. rewrite Ea, Er.
    rewrite (mt_sparse_fit srt VS n p Hn T _ _ _ _ _ (bmcp_pen_ok T a r Ha Hp) Y t Ht) with (E := E) by auto. symmetry. apply (mt_dense_fit srt VS n p Hn T _ _ _ _ _ (bmcp_pen_ok T a r Ha Hp) Y t Ht).
Qed.
End C18.

(** *** C38 *)
Lemma xm_column p W : xm p 1 W = column (xv p (fun j => W j 0%nat)).
Proof. unfold column. rewrite xv_length. unfold xv. rewrite map_tab. reflexivity. Qed.
Lemma map_ok_fit {DM A B} (chk : params xr -> result (params xr) (estimator_error xr)) (fit : params xr -> dataset DM xr -> res A) (fit' : params xr -> dataset DM xr -> res B) f pr ds :
  (forall c, chk pr = Ok c -> fit' c ds = bind (fit c ds) (fun a => Ret (f a))) ->
  fit_unchecked chk fit' pr ds = bind (fit_unchecked chk fit pr ds) (fun r => Ret (map_ok f r)).
Proof. intros H. unfold fit_unchecked. destruct (chk pr) as [c|e]; auto. rewrite (H c) by auto. destruct (fit c ds); auto. Qed.
Lemma one_task_run srt (VS : valid_sort xops srt) n p X y a tol K acc ws0 me it : 0 < a -> (1 <= n)%nat ->
  runT srt p 1 ws0 it me tol K acc (mtP n p 1 X (fun i _ => y i) (bprox (l21_penalty xops) (L21 (Fin a))) (npv (abs_pen a)) (r_l21_score a))
  = bind (run1 srt p ws0 it me tol K acc (quadP n p X y (fun v s => rsoft v (a * s)) (abs_pen a) (r_l1_score a))) (fun w => Ret (column w)).
Proof.
  intros Ha Hn. set (P2 := mtP _ _ _ _ _ _ _ _). set (P1 := quadP _ _ _ _ _ _ _).
  assert (H := rel_solve P1 P2 srt (fun _ => 1) _ VS eq_refl eq_refl (fun _ _ => or_introl eq_refl) (one_task_sim n p X y a Ha Hn) acc (fun _ _ _ => eq_refl) tol K ws0 me it).
  unfold run1, runT. destruct (rsolve P1 _ _ _ _ _ _ _) as [[W Z]|e], (rsolve P2 _ _ _ _ _ _ _) as [[W' Z']|e']; simpl in H; try contradiction; [|subst; reflexivity].
  destruct H as [HW _]. cbn [fst] in HW. cbn [bind fst]. f_equal. rewrite xm_column. f_equal. apply xv_ext. intros j Hj. rewrite (HW j 0%nat) by (cbn; auto). cbn. ring.
Qed.
Section C38.
Context (srt : list xr -> list nat) (VS : valid_sort xops srt) (n p : nat) (Hn : (1 <= n)%nat).
Lemma c38_dense X y t pr a : single_target_of n y t -> p_alpha pr = Fin a -> 0 < a ->
  fit_unchecked (mt_lasso_check_ref xops) (mt_lasso_fit_dense xops srt) pr (Dataset (xm n p X) t)
  = bind (fit_unchecked (lasso_check_ref xops) (lasso_fit_dense xops srt) pr (Dataset (xm n p X) t)) (fun r => Ret (map_ok column r)).
Proof.
  intros Ht Ea Ha. apply (map_ok_fit (lasso_check_ref xops)). intros c' Hc. apply (lasso_ok _ _ a) in Hc as [-> _]; auto.
  unfold mt_lasso_fit_dense, lasso_fit_dense. rewrite Ea.
  rewrite (mt_dense_fit srt VS n p Hn 1 _ _ _ _ _ (l21_pen_ok 1 a Ha) (fun i _ => y i) t (single_multi n y t Ht)).
  rewrite (quad_dense_fit srt VS n p Hn _ _ _ _ _ (l1_pen_ok a) y t Ht). apply one_task_run; auto.
Qed.
Lemma c38_sparse E c y t pr a : csc_of n p E c -> no_repeats p E -> single_target_of n y t -> p_alpha pr = Fin a -> 0 < a ->
  fit_unchecked (mt_lasso_check_ref xops) (mt_lasso_fit_sparse xops srt) pr (Dataset c t)
  = bind (fit_unchecked (lasso_check_ref xops) (lasso_fit_sparse xops srt) pr (Dataset c t)) (fun r => Ret (map_ok column r)).
Proof.
  intros HC HR Ht Ea Ha. apply (map_ok_fit (lasso_check_ref xops)). intros c' Hc. apply (lasso_ok _ _ a) in Hc as [-> _]; auto.
  unfold mt_lasso_fit_sparse, lasso_fit_sparse. rewrite Ea.
  rewrite (mt_sparse_fit srt VS n p Hn 1 _ _ _ _ _ (l21_pen_ok 1 a Ha) (fun i _ => y i) t (single_multi n y t Ht)) with (E := E) by auto.
  rewrite (quad_sparse_fit srt VS n p Hn _ _ _ _ _ (l1_pen_ok a) y t Ht) with (E := E) by auto. apply one_task_run; auto.
Qed.
End C38.

(** *** the reference run returns *)
Section Ret.
Variables (P : problem) (srt : list xr -> list nat) (VS : valid_sort xops srt).
Local Notation p := (pp P). Local Notation T := (pT P).
Lemma rsel_ok W Z ws0 : (ws0 <= p)%nat -> exists ws, rsel P srt W Z ws0 = Ret (ws, length ws) /\ NoDup ws /\ (forall j, In j ws -> (j < p)%nat) /\ (ws0 <= length ws)%nat.
Proof.
  intros H0. destruct (select_ok xops srt xr_laws (rnz P W) p (tab p (fun j => Fin (rdist P W Z j))) ws0 VS H0) as (ws & E & (ND & IN) & HL & _).
  { intros j Hj _. rewrite nth_tab by auto. reflexivity. }
  exists ws. split; [exact E|]. repeat split; auto. rewrite HL. apply Nat.le_max_l.
Qed.
Lemma raccel_ret W Z H ws e K : (1 <= K <= length ws * T)%nat \/ (e mod S K <> K)%nat -> exists st, raccel P W Z H ws e K = Ret st.
Proof.
  intros HK. unfold raccel. destruct (Nat.eqb_spec (e mod S K) K) as [E|E]; [|eauto]. destruct HK as [HK|]; [|contradiction].
  destruct (t_anderson xops (xm (S K) (length ws * T) (rstore P H (e mod S K) W ws)) K (length ws * T) (xm_shaped _ _ _) HK) as (r & -> & _). cbn [bind].
  destruct r; [cbv zeta; destruct (Rltb _ _)|]; eauto.
Qed.
Lemma rinner_ret tol kmax K acc ws : forall es W Z H, (acc = true -> (1 <= K <= length ws * T)%nat \/ forall e, In e es -> (e mod S K <> K)%nat) ->
  exists st, rinner P tol kmax K acc ws es W Z H = Ret st.
Proof.
  induction es as [|e es IH]; intros W Z H HA; [simpl; eauto|]. cbn [rinner]. destruct (fold_left _ _ _) as [W1 Z1].
  assert (R : exists st, (if acc then raccel P W1 Z1 H ws e K else Ret (W1, Z1, H)) = Ret st).
  { destruct acc; [|eauto]. apply raccel_ret. destruct (HA eq_refl) as [A|A]; auto. right. apply A. left; auto. }
  destruct R as ([[W2 Z2] H2] & ->). cbn [bind]. cbv zeta.
  assert (N : exists st, rinner P tol kmax K acc ws es W2 Z2 H2 = Ret st).
  { apply IH. intros Ha. destruct (HA Ha) as [A|A]; auto. right. intros e' He'. apply A. right; auto. }
  destruct (_ && _); auto. destruct (_ =? _)%nat; [destruct (xle _ _)|destruct (xlt _ _)]; eauto.
Qed.
Lemma router_ret tol K acc ws0 me : (ws0 <= p)%nat -> accel_safe acc K (ws0 * T) me -> forall it W Z, exists st, router P srt tol K acc ws0 me it W Z = Ret st.
Proof.
  intros H0 HA. induction it as [|it IH]; intros W Z; [simpl; eauto|]. cbn [router]. destruct (xle _ _); [eauto|].
  destruct (rsel_ok W Z ws0 H0) as (ws & -> & _ & _ & HL). cbn [bind].
  destruct (rinner_ret tol (rkmax P W Z (seq 0 p)) K acc ws (seq 0 me) W Z (fun _ _ => 0)) as ([W' Z'] & ->).
  { intros Hacc. destruct HA as [A|[A|A]]; [congruence|left; nia|right]. intros e He. apply in_seq in He. rewrite Nat.mod_small; lia. }
  cbn [bind]. apply IH.
Qed.
Lemma rsolve_ret tol K acc ws0 me it : accel_safe acc K (Nat.min ws0 p * T) me -> exists st, rsolve P srt tol K acc ws0 me it = Ret st.
Proof. intros H. apply router_ret; auto. apply Nat.le_min_r. Qed.
End Ret.

(** *** C45 *)
Section Rel.
Context (srt : list xr -> list nat) (VS : valid_sort xops srt) (n p : nat) (Hn : (1 <= n)%nat).
Lemma run1_same P1 P2 RZ ws0 it me tol K acc : pp P1 = p -> pp P2 = p -> pT P1 = 1%nat -> pT P2 = 1%nat -> sim P1 P2 (fun _ => 1) RZ ->
  run1 srt p ws0 it me tol K acc P2 = run1 srt p ws0 it me tol K acc P1.
Proof.
  intros E1 E2 E3 E4 S.
  assert (H := rel_solve P1 P2 srt (fun _ => 1) RZ VS (eq_trans E2 (eq_sym E1)) (eq_trans E4 (eq_sym E3)) (fun _ _ => or_introl eq_refl) S acc (fun _ _ _ => eq_refl) tol K ws0 me it).
  unfold run1. destruct (rsolve P1 _ _ _ _ _ _ _) as [[W Z]|e], (rsolve P2 _ _ _ _ _ _ _) as [[W' Z']|e']; simpl in H; try contradiction; [|subst; reflexivity].
  destruct H as [HW _]. cbn [fst] in HW. cbn [bind fst]. f_equal. apply xv_ext. intros j Hj. rewrite (HW j 0%nat) by (rewrite ?E1, ?E3; auto). cbn. ring.
Qed.
Lemma runT_same T P1 P2 RZ ws0 it me tol K acc : pp P1 = p -> pp P2 = p -> pT P1 = T -> pT P2 = T -> sim P1 P2 (fun _ => 1) RZ ->
  runT srt p T ws0 it me tol K acc P2 = runT srt p T ws0 it me tol K acc P1.
Proof.
  intros E1 E2 E3 E4 S.
  assert (H := rel_solve P1 P2 srt (fun _ => 1) RZ VS (eq_trans E2 (eq_sym E1)) (eq_trans E4 (eq_sym E3)) (fun _ _ => or_introl eq_refl) S acc (fun _ _ _ => eq_refl) tol K ws0 me it).
  unfold runT. destruct (rsolve P1 _ _ _ _ _ _ _) as [[W Z]|e], (rsolve P2 _ _ _ _ _ _ _) as [[W' Z']|e']; simpl in H; try contradiction; [|subst; reflexivity].
  destruct H as [HW _]. cbn [fst] in HW. cbn [bind fst]. f_equal. apply xm_ext. intros j t Hj Ht. rewrite (HW j t) by (rewrite ?E1, ?E3; auto). cbn. ring.
Qed.
Lemma run1_flip P1 P2 s RZ ws0 it me tol K : pp P1 = p -> pp P2 = p -> pT P1 = 1%nat -> pT P2 = 1%nat -> signs p s -> sim P1 P2 s RZ ->
  exists w, run1 srt p ws0 it me tol K false P1 = Ret (xv p w) /\ run1 srt p ws0 it me tol K false P2 = Ret (xv p (fun j => s j * w j)).
Proof.
  intros E1 E2 E3 E4 Hs S.
  assert (H := rel_solve P1 P2 srt s RZ VS (eq_trans E2 (eq_sym E1)) (eq_trans E4 (eq_sym E3)) (fun j Hj => Hs j (eq_rect _ (fun q => (j < q)%nat) Hj _ E1)) S false (fun e : false = true => match Bool.diff_false_true e with end) tol K ws0 me it).
  destruct (rsolve_ret P1 srt VS tol K false ws0 me it (or_introl eq_refl)) as ([W Z] & EW).
  unfold run1. rewrite EW in *. destruct (rsolve P2 _ _ _ _ _ _ _) as [[W' Z']|e']; simpl in H; try contradiction.
  destruct H as [HW _]. cbn [fst] in HW. cbn [bind fst]. exists (fun j => W j 0%nat). split; auto. f_equal. apply xv_ext. intros j Hj. apply HW; rewrite ?E1, ?E3; auto.
Qed.
Lemma runT_flip T P1 P2 s RZ ws0 it me tol K : pp P1 = p -> pp P2 = p -> pT P1 = T -> pT P2 = T -> signs p s -> sim P1 P2 s RZ ->
  exists W, runT srt p T ws0 it me tol K false P1 = Ret (xm p T W) /\ runT srt p T ws0 it me tol K false P2 = Ret (xm p T (fun j t => s j * W j t)).
Proof.
  intros E1 E2 E3 E4 Hs S.
  assert (H := rel_solve P1 P2 srt s RZ VS (eq_trans E2 (eq_sym E1)) (eq_trans E4 (eq_sym E3)) (fun j Hj => Hs j (eq_rect _ (fun q => (j < q)%nat) Hj _ E1)) S false (fun e : false = true => match Bool.diff_false_true e with end) tol K ws0 me it).
  destruct (rsolve_ret P1 srt VS tol K false ws0 me it (or_introl eq_refl)) as ([W Z] & EW).
  unfold runT. rewrite EW in *. destruct (rsolve P2 _ _ _ _ _ _ _) as [[W' Z']|e']; simpl in H; try contradiction.
  destruct H as [HW _]. cbn [fst] in HW. cbn [bind fst]. exists W. split; auto. f_equal. apply xm_ext. intros j t Hj Ht. apply HW; rewrite ?E1, ?E3; auto.
Qed.

(** rows *)
Section Rows.
Variables (sg : nat -> nat) (Hsg : row_perm n sg).
Let Hone : forall j, (j < p)%nat -> (fun _ : nat => 1) j = 1 \/ (fun _ : nat => 1) j = -1.
Proof. auto. Qed.
Section OnePen.
Context {P : Type} (pen : Penalty xr P) (q : P) (prox : R -> R -> R) (pv : R -> R) (dist : R -> R -> R)
  (HP : pen_ok pen q prox pv dist (fun s => 0 < s)) (HS : pen_sym 1 (lprox prox) (lpv pv) (ldist dist)) (y : nat -> R) (t t' : targets xr)
  (Ht : single_target_of n y t) (Ht' : single_target_of n (fun i => y (sg i)) t') (ws0 it me : nat) (tol : xr) (K : nat) (acc v : bool).
Lemma rows_quad_dense X d :
  coordinate_descent xops (dense_dm xops) (quad_dense xops) pen srt (Dataset (xm n p (fun i j => X (sg i) j)) t') d q ws0 it me tol K acc v
  = coordinate_descent xops (dense_dm xops) (quad_dense xops) pen srt (Dataset (xm n p X) t) d q ws0 it me tol K acc v.
Proof.
  rewrite (quad_dense_fit srt VS n p Hn _ _ _ _ _ HP y t Ht), (quad_dense_fit srt VS n p Hn _ _ _ _ _ HP (fun i => y (sg i)) t' Ht').
  eapply run1_same; auto. apply (flip_quad n p X (fun i j => X (sg i) j) sg (fun _ => 1) y (fun i => y (sg i)) Hn Hsg Hone); auto. intros; ring.
Qed.
Lemma rows_quad_sparse E c E' c' d : csc_of n p E c -> no_repeats p E -> csc_of n p E' c' -> no_repeats p E' ->
  (forall i j, (i < n)%nat -> (j < p)%nat -> entry E' i j = entry E (sg i) j) ->
  coordinate_descent xops (sparse_dm xops) (quad_sparse xops) pen srt (Dataset c' t') d q ws0 it me tol K acc v
  = coordinate_descent xops (sparse_dm xops) (quad_sparse xops) pen srt (Dataset c t) d q ws0 it me tol K acc v.
Proof.
  intros HC HR HC' HR' HE. rewrite (quad_sparse_fit srt VS n p Hn _ _ _ _ _ HP y t Ht) with (E := E) by auto.
  rewrite (quad_sparse_fit srt VS n p Hn _ _ _ _ _ HP (fun i => y (sg i)) t' Ht') with (E := E') by auto.
  eapply run1_same; auto. apply (flip_quad n p (entry E) (entry E') sg (fun _ => 1) y (fun i => y (sg i)) Hn Hsg Hone); auto. intros. rewrite HE by auto. ring.
Qed.
Lemma rows_log_dense X d :
  coordinate_descent xops (dense_dm xops) (log_dense xops) pen srt (Dataset (xm n p (fun i j => X (sg i) j)) t') d q ws0 it me tol K acc v
  = coordinate_descent xops (dense_dm xops) (log_dense xops) pen srt (Dataset (xm n p X) t) d q ws0 it me tol K acc v.
Proof.
  rewrite (log_dense_fit srt VS n p Hn _ _ _ _ _ HP y t Ht), (log_dense_fit srt VS n p Hn _ _ _ _ _ HP (fun i => y (sg i)) t' Ht').
  eapply run1_same; auto. apply (flip_log n p X (fun i j => X (sg i) j) sg (fun _ => 1) y (fun i => y (sg i)) Hn Hsg Hone); auto. intros; ring.
Qed.
End OnePen.
Section BlockPen.
Context {P : Type} (T : nat) (pen : PenaltyMT xr P) (q : P) (prox : list R -> R -> list R) (pv : list R -> R) (dist : list R -> list R -> R)
  (HP : bpen_ok T pen q prox pv dist (fun s => 0 < s)) (HS : pen_sym T prox pv dist) (Y : rmat) (t t' : targets xr)
  (Ht : multi_target_of n T Y t) (Ht' : multi_target_of n T (fun i k => Y (sg i) k) t') (ws0 it me : nat) (tol : xr) (K : nat) (acc v : bool).
Lemma rows_mt_dense X d :
  block_coordinate_descent xops (dense_dm xops) (qmt_dense xops) pen srt (Dataset (xm n p (fun i j => X (sg i) j)) t') d q ws0 it me tol K acc v
  = block_coordinate_descent xops (dense_dm xops) (qmt_dense xops) pen srt (Dataset (xm n p X) t) d q ws0 it me tol K acc v.
Proof.
  rewrite (mt_dense_fit srt VS n p Hn T _ _ _ _ _ HP Y t Ht), (mt_dense_fit srt VS n p Hn T _ _ _ _ _ HP (fun i k => Y (sg i) k) t' Ht').
  eapply runT_same; auto. apply (flip_mt n p T X (fun i j => X (sg i) j) sg (fun _ => 1) Hn Hsg Hone); auto. intros; ring.
Qed.
End BlockPen.
End Rows.
(** signs *)
Section Signs.
Variables (s : nat -> R) (Hs : signs p s).
Lemma id_perm : row_perm n (fun i => i).
Proof. unfold row_perm. rewrite map_id. apply Permutation_refl. Qed.
Lemma flip_fit {DM} (chk : params xr -> result (params xr) (estimator_error xr)) (fit : params xr -> dataset DM xr -> res (list xr)) pr ds ds' :
  (forall c, chk pr = Ok c -> exists w, fit c ds = Ret (xv p w) /\ fit c ds' = Ret (xv p (fun j => s j * w j))) ->
  fits_flip p s (fit_unchecked chk fit pr ds) (fit_unchecked chk fit pr ds').
Proof.
  intros H. unfold fit_unchecked. destruct (chk pr) as [c|e]; [right|left; eauto]. destruct (H c eq_refl) as (w & -> & ->). exists w. auto.
Qed.
Lemma flip_fit_mt {DM} T (chk : params xr -> result (params xr) (estimator_error xr)) (fit : params xr -> dataset DM xr -> res (mat xr)) pr ds ds' :
  (forall c, chk pr = Ok c -> exists W, fit c ds = Ret (xm p T W) /\ fit c ds' = Ret (xm p T (fun j t => s j * W j t))) ->
  fits_flip_mt p T s (fit_unchecked chk fit pr ds) (fit_unchecked chk fit pr ds').
Proof.
  intros H. unfold fit_unchecked. destruct (chk pr) as [c|e]; [right|left; eauto]. destruct (H c eq_refl) as (W & -> & ->). exists W. auto.
Qed.
Lemma signs_quad {P} (pen : Penalty xr P) (q : P) prox pv dist (HP : pen_ok pen q prox pv dist (fun s => 0 < s)) (HS : pen_sym 1 (lprox prox) (lpv pv) (ldist dist))
    X y t d ws0 it me tol K v : single_target_of n y t -> exists w,
  coordinate_descent xops (dense_dm xops) (quad_dense xops) pen srt (Dataset (xm n p X) t) d q ws0 it me tol K false v = Ret (xv p w) /\
  coordinate_descent xops (dense_dm xops) (quad_dense xops) pen srt (Dataset (xm n p (fun i j => s j * X i j)) t) d q ws0 it me tol K false v = Ret (xv p (fun j => s j * w j)).
Proof.
  intros Ht. rewrite !(quad_dense_fit srt VS n p Hn _ _ _ _ _ HP y t Ht). eapply run1_flip; auto.
  apply (flip_quad n p X (fun i j => s j * X i j) (fun i => i) s y y Hn id_perm); auto.
Qed.
Lemma signs_log {P} (pen : Penalty xr P) (q : P) prox pv dist (HP : pen_ok pen q prox pv dist (fun s => 0 < s)) (HS : pen_sym 1 (lprox prox) (lpv pv) (ldist dist))
    X y t d ws0 it me tol K v : single_target_of n y t -> exists w,
  coordinate_descent xops (dense_dm xops) (log_dense xops) pen srt (Dataset (xm n p X) t) d q ws0 it me tol K false v = Ret (xv p w) /\
  coordinate_descent xops (dense_dm xops) (log_dense xops) pen srt (Dataset (xm n p (fun i j => s j * X i j)) t) d q ws0 it me tol K false v = Ret (xv p (fun j => s j * w j)).
Proof.
  intros Ht. rewrite !(log_dense_fit srt VS n p Hn _ _ _ _ _ HP y t Ht). eapply run1_flip; auto.
  apply (flip_log n p X (fun i j => s j * X i j) (fun i => i) s y y Hn id_perm); auto.
Qed.
Lemma signs_mt {P} T (pen : PenaltyMT xr P) (q : P) prox pv dist (HP : bpen_ok T pen q prox pv dist (fun s => 0 < s)) (HS : pen_sym T prox pv dist)
    X Y t d ws0 it me tol K v : multi_target_of n T Y t -> exists W,
  block_coordinate_descent xops (dense_dm xops) (qmt_dense xops) pen srt (Dataset (xm n p X) t) d q ws0 it me tol K false v = Ret (xm p T W) /\
  block_coordinate_descent xops (dense_dm xops) (qmt_dense xops) pen srt (Dataset (xm n p (fun i j => s j * X i j)) t) d q ws0 it me tol K false v = Ret (xm p T (fun j k => s j * W j k)).
Proof.
  intros Ht. rewrite !(mt_dense_fit srt VS n p Hn T _ _ _ _ _ HP Y t Ht). eapply runT_flip; auto.
  apply (flip_mt n p T X (fun i j => s j * X i j) (fun i => i) s Hn id_perm); auto.
Qed.
End Signs.

(** user-level statements *)
Lemma c45_rows sg X y t t' pr a r : row_perm n sg -> single_target_of n y t -> single_target_of n (fun i => y (sg i)) t' ->
  p_alpha pr = Fin a -> p_shape pr = Fin r ->
  let D := Dataset (xm n p X) t in let D' := Dataset (xm n p (fun i j => X (sg i) j)) t' in
  fit_unchecked (lasso_check_ref xops) (lasso_fit_dense xops srt) pr D' = fit_unchecked (lasso_check_ref xops) (lasso_fit_dense xops srt) pr D /\
  fit_unchecked (elastic_net_check_ref xops) (elastic_net_fit_dense xops srt) pr D' = fit_unchecked (elastic_net_check_ref xops) (elastic_net_fit_dense xops srt) pr D /\
  fit_unchecked (mcp_check_ref xops) (mcp_fit_dense xops srt) pr D' = fit_unchecked (mcp_check_ref xops) (mcp_fit_dense xops srt) pr D.
Proof.
  intros Hsg Ht Ht' Ea Er D D'. repeat split; apply fit_eq; intros c' Hc.
  - apply (lasso_ok _ _ a) in Hc as [-> Ha]; auto. unfold lasso_fit_dense. rewrite Ea. eapply (rows_quad_dense sg Hsg _ _ _ _ _ (l1_pen_ok a) (l1_sym a Ha)); eauto.
  - apply (enet_ok _ _ a r) in Hc as (-> & Ha & Hr); auto. unfold elastic_net_fit_dense. rewrite Ea, Er. eapply (rows_quad_dense sg Hsg _ _ _ _ _ (l1l2_pen_ok a r Ha Hr) (l1l2_sym a r Ha Hr)); eauto.
  - apply (mcp_ok _ _ a r) in Hc as (-> & Ha & Hr); auto. assert (Hr' : 0 < r) by lra. unfold mcp_fit_dense. rewrite Ea, Er. eapply (rows_quad_dense sg Hsg _ _ _ _ _ (mcp_pen_ok a r Hr') (mcp_sym a r Ha Hr')); eauto.
Qed.
Lemma c45_rows_sparse sg E c E' c' y t t' pr a r : row_perm n sg -> single_target_of n y t -> single_target_of n (fun i => y (sg i)) t' ->
  csc_of n p E c -> no_repeats p E -> csc_of n p E' c' -> no_repeats p E' ->
  (forall i j, (i < n)%nat -> (j < p)%nat -> entry E' i j = entry E (sg i) j) ->
  p_alpha pr = Fin a -> p_shape pr = Fin r ->
  let D := Dataset c t in let D' := Dataset c' t' in
  fit_unchecked (lasso_check_ref xops) (lasso_fit_sparse xops srt) pr D' = fit_unchecked (lasso_check_ref xops) (lasso_fit_sparse xops srt) pr D /\
  fit_unchecked (elastic_net_check_ref xops) (elastic_net_fit_sparse xops srt) pr D' = fit_unchecked (elastic_net_check_ref xops) (elastic_net_fit_sparse xops srt) pr D /\
  fit_unchecked (mcp_check_ref xops) (mcp_fit_sparse xops srt) pr D' = fit_unchecked (mcp_check_ref xops) (mcp_fit_sparse xops srt) pr D.
Proof.
  intros Hsg Ht Ht' HC HR HC' HR' HE Ea Er D D'. repeat split; apply fit_eq; intros cc Hc.
  - apply (lasso_ok _ _ a) in Hc as [-> Ha]; auto. unfold lasso_fit_sparse. rewrite Ea. eapply (rows_quad_sparse sg Hsg _ _ _ _ _ (l1_pen_ok a) (l1_sym a Ha)); eauto.
  - apply (enet_ok _ _ a r) in Hc as (-> & Ha & Hr); auto. unfold elastic_net_fit_sparse. rewrite Ea, Er. eapply (rows_quad_sparse sg Hsg _ _ _ _ _ (l1l2_pen_ok a r Ha Hr) (l1l2_sym a r Ha Hr)); eauto.
  - apply (mcp_ok _ _ a r) in Hc as (-> & Ha & Hr); auto. assert (Hr' : 0 < r) by lra. unfold mcp_fit_sparse. rewrite Ea, Er. eapply (rows_quad_sparse sg Hsg _ _ _ _ _ (mcp_pen_ok a r Hr') (mcp_sym a r Ha Hr')); eauto.
Qed.
Lemma c45_rows_logistic sg X y t t' (s : solver xr) d a : row_perm n sg -> single_target_of n y t -> single_target_of n (fun i => y (sg i)) t' -> 0 <= a ->
  solve xops srt (dense_dm xops) (log_dense xops) (l1_penalty xops) s (Dataset (xm n p (fun i j => X (sg i) j)) t') d (L1 (Fin a))
  = solve xops srt (dense_dm xops) (log_dense xops) (l1_penalty xops) s (Dataset (xm n p X) t) d (L1 (Fin a)).
Proof. intros Hsg Ht Ht' Ha. unfold solve. eapply (rows_log_dense sg Hsg _ _ _ _ _ (l1_pen_ok a) (l1_sym a Ha)); eauto. Qed.
Lemma c45_rows_mt T sg X Y t t' pr a r : row_perm n sg -> multi_target_of n T Y t -> multi_target_of n T (fun i k => Y (sg i) k) t' ->
  p_alpha pr = Fin a -> p_shape pr = Fin r ->
  let D := Dataset (xm n p X) t in let D' := Dataset (xm n p (fun i j => X (sg i) j)) t' in
  (0 < a -> fit_unchecked (mt_lasso_check_ref xops) (mt_lasso_fit_dense xops srt) pr D' = fit_unchecked (mt_lasso_check_ref xops) (mt_lasso_fit_dense xops srt) pr D) /\
  (0 < a * r -> fit_unchecked (mt_elastic_net_check_ref xops) (mt_elastic_net_fit_dense xops srt) pr D' = fit_unchecked (mt_elastic_net_check_ref xops) (mt_elastic_net_fit_dense xops srt) pr D) /\
  (0 < r -> fit_unchecked (block_mcp_check_ref xops) (block_mcp_fit_dense xops srt) pr D' = fit_unchecked (block_mcp_check_ref xops) (block_mcp_fit_dense xops srt) pr D).
Proof.
  intros Hsg Ht Ht' Ea Er D D'. repeat split; intros Hp; apply fit_eq; intros c' Hc.
  - apply (mt_lasso_ok _ _ a) in Hc as [-> Ha]; auto. unfold mt_lasso_fit_dense. rewrite Ea. eapply (rows_mt_dense sg Hsg T _ _ _ _ _ (l21_pen_ok T a Hp) (l21_sym T a Hp)); eauto.
  - apply (mt_enet_ok _ _ a r) in Hc as (-> & Ha & Hr); auto. unfold mt_elastic_net_fit_dense. rewrite Ea, Er. eapply (rows_mt_dense sg Hsg T _ _ _ _ _ (bl1l2_pen_ok T a r Ha Hr Hp) (bl1l2_sym T a r Ha Hr Hp)); eauto.
  - apply (bmcp_ok _ _ a) in Hc as (-> & Ha); auto. unfold block_mcp_fit_dense. rewrite Ea, Er. eapply (rows_mt_dense sg Hsg T _ _ _ _ _ (bmcp_pen_ok T a r Ha Hp) (bmcp_sym T a r Ha Hp)); eauto.
Qed.
Lemma c45_signs s X y t pr a r : signs p s -> single_target_of n y t -> p_alpha pr = Fin a -> p_shape pr = Fin r -> p_use_acceleration pr = false ->
  let D := Dataset (xm n p X) t in let D' := Dataset (xm n p (fun i j => s j * X i j)) t in
  fits_flip p s (fit_unchecked (lasso_check_ref xops) (lasso_fit_dense xops srt) pr D) (fit_unchecked (lasso_check_ref xops) (lasso_fit_dense xops srt) pr D') /\
  fits_flip p s (fit_unchecked (elastic_net_check_ref xops) (elastic_net_fit_dense xops srt) pr D) (fit_unchecked (elastic_net_check_ref xops) (elastic_net_fit_dense xops srt) pr D') /\
  fits_flip p s (fit_unchecked (mcp_check_ref xops) (mcp_fit_dense xops srt) pr D) (fit_unchecked (mcp_check_ref xops) (mcp_fit_dense xops srt) pr D').
Proof.
  intros Hs Ht Ea Er Eacc D D'. repeat split; apply flip_fit; intros c' Hc.
  - apply (lasso_ok _ _ a) in Hc as [-> Ha]; auto. unfold lasso_fit_dense. rewrite Ea, Eacc. apply (signs_quad s Hs _ _ _ _ _ (l1_pen_ok a) (l1_sym a Ha) X y); auto.
  - apply (enet_ok _ _ a r) in Hc as (-> & Ha & Hr); auto. unfold elastic_net_fit_dense. rewrite Ea, Er, Eacc. apply (signs_quad s Hs _ _ _ _ _ (l1l2_pen_ok a r Ha Hr) (l1l2_sym a r Ha Hr) X y); auto.
  - apply (mcp_ok _ _ a r) in Hc as (-> & Ha & Hr); auto. assert (Hr' : 0 < r) by lra. unfold mcp_fit_dense. rewrite Ea, Er, Eacc. apply (signs_quad s Hs _ _ _ _ _ (mcp_pen_ok a r Hr') (mcp_sym a r Ha Hr') X y); auto.
Qed.
Lemma c45_signs_mt T s X Y t pr a r : signs p s -> multi_target_of n T Y t -> p_alpha pr = Fin a -> p_shape pr = Fin r -> p_use_acceleration pr = false ->
  let D := Dataset (xm n p X) t in let D' := Dataset (xm n p (fun i j => s j * X i j)) t in
  (0 < a -> fits_flip_mt p T s (fit_unchecked (mt_lasso_check_ref xops) (mt_lasso_fit_dense xops srt) pr D) (fit_unchecked (mt_lasso_check_ref xops) (mt_lasso_fit_dense xops srt) pr D')) /\
  (0 < a * r -> fits_flip_mt p T s (fit_unchecked (mt_elastic_net_check_ref xops) (mt_elastic_net_fit_dense xops srt) pr D) (fit_unchecked (mt_elastic_net_check_ref xops) (mt_elastic_net_fit_dense xops srt) pr D')) /\
  (0 < r -> fits_flip_mt p T s (fit_unchecked (block_mcp_check_ref xops) (block_mcp_fit_dense xops srt) pr D) (fit_unchecked (block_mcp_check_ref xops) (block_mcp_fit_dense xops srt) pr D')).
Proof.
  intros Hs Ht Ea Er Eacc D D'. repeat split; intros Hp; apply flip_fit_mt; intros c' Hc.
  - apply (mt_lasso_ok _ _ a) in Hc as [-> Ha]; auto. unfold mt_lasso_fit_dense. rewrite Ea, Eacc. apply (signs_mt s Hs T _ _ _ _ _ (l21_pen_ok T a Hp) (l21_sym T a Hp) X Y); auto.
  - apply (mt_enet_ok _ _ a r) in Hc as (-> & Ha & Hr); auto. unfold mt_elastic_net_fit_dense. rewrite Ea, Er, Eacc. apply (signs_mt s Hs T _ _ _ _ _ (bl1l2_pen_ok T a r Ha Hr Hp) (bl1l2_sym T a r Ha Hr Hp) X Y); auto.
  - apply (bmcp_ok _ _ a) in Hc as (-> & Ha); auto. unfold block_mcp_fit_dense. rewrite Ea, Er, Eacc. apply (signs_mt s Hs T _ _ _ _ _ (bmcp_pen_ok T a r Ha Hp) (bmcp_sym T a r Ha Hp) X Y); auto.
Qed.
End Rel.
