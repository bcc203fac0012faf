(** Block MCP does not shrink rows of norm [gamma alpha] or more. *)
From Coq Require Import List ZArith Bool Arith Reals Lra Lia.
From Verif Require Import Ops Arr MUtils MDatasets MHyper MEstimators XR SpecPen VecR PBase RSum SpecLin SpecData PDatafit PCalc PDataProps SpecSolve PLaws PSubdiff SpecOpt SpecMore PFitOpt PCert PConvBlock SpecPath PDup PDescent PIncoh SpecShrink PShrink MDatafitsMT MCd MBcd SpecNull SpecOrth POrth POrthEx PColsEx PShrinkEx.
Import ListNotations.
Open Scope R_scope.

Section B.
Variables (n p T : nat) (Hn : (1 <= n)%nat) (X Y : rmat) (a gm tol : R) (W : rmat).
Hypotheses (Hr : penT_range (BlockMcpPen a gm)) (Ht : 0 < tol).
Local Notation rown U j := (norm2 (map (U j) (seq 0 T))).
Lemma flat_row j : (j < p)%nat -> rown W j <> 0 -> a * gm <= rown W j -> tdT (BlockMcpPen a gm) (tab T (W j)) (tab T (gq n X Y (lin_mt p X W) j)) <= tol ->
  norm2 (tab T (gq n X Y (lin_mt p X W) j)) <= tol.
Proof.
  intros Hj Hp Hb. change (map (W j) (seq 0 T)) with (tab T (W j)) in Hp, Hb. cbn [tdT]. destruct (Reqb_case (norm2 (tab T (W j))) 0) as [E|E]; [contradiction|]. destruct (Rltb_case (norm2 (tab T (W j))) (a * gm)); [lra|auto].
Qed.
Lemma unbiased_mt : stationary_mt tol (quad_loss_mt n T Y) p T X (penT (BlockMcpPen a gm)) W -> (forall j, (j < p)%nat -> rown W j = 0 \/ a * gm <= rown W j) ->
  forall V, (forall j t, (j < p)%nat -> (t < T)%nat -> rown W j = 0 -> V j t = 0) ->
  quad_loss_mt n T Y (lin_mt p X W) <= quad_loss_mt n T Y (lin_mt p X V) + tol * Sum p (fun j => rown (fun j t => W j t - V j t) j).
Proof.
  intros Hst Hb V HV. pose proof (proj1 (stationary_mt_iff n p Hn T (BlockMcpPen a gm) X Y W tol Hr) Hst) as HT.
  pose proof (quad_convex n T p X Y W V Hn) as Q.
  assert (B : - Sum p (fun j => Sum T (fun t => gq n X Y (lin_mt p X W) j t * (V j t - W j t))) <= tol * Sum p (fun j => rown (fun j t => W j t - V j t) j)); [|lra].
  rewrite <- Sum_opp, <- Sum_scal. apply Sum_le. intros j Hj. rewrite <- Sum_opp.
  rewrite (Sum_ext T _ (fun t => gq n X Y (lin_mt p X W) j t * (W j t - V j t))) by (intros; ring). destruct (Req_dec (rown W j) 0) as [Z|Z].
  - rewrite Sum_zero; [apply Rmult_le_pos; [lra|apply norm2_pos]|]. intros t Hu. rewrite (HV j t Hj Hu Z).
    pose proof (norm2_tab T (W j)) as S. unfold tab in S. rewrite Z in S. pose proof (Sum_ge_term T (fun t => W j t ^ 2) t ltac:(intros; apply pow2_ge_0) Hu) as S'. cbv beta in S'. rewrite <- S in S'. pose proof (pow2_ge_0 (W j t)). assert (W j t = 0) as -> by nra. ring.
  - assert (B : a * gm <= rown W j) by (destruct (Hb j Hj); [contradiction|auto]). pose proof (flat_row j Hj Z B (HT j Hj)) as G. apply Rle_trans with (1 := Rle_abs _). apply Rle_trans with (1 := dot_le T (gq n X Y (lin_mt p X W) j) (fun t => W j t - V j t)).
    apply Rmult_le_compat_r; [apply norm2_pos|exact G].
Qed.
End B.
Lemma c108_block srt (VS : valid_sort xops srt) n p T X Y a g s fit t : (1 <= n)%nat -> multi_fit srt n p T X Y (BlockMcpPen a g) s fit -> accepted fit -> gamma_ok Rlt g Squared n p X -> patient p T s t ->
  let size (U : rmat) j := norm2 (map (U j) (seq 0 T)) in
  eventually_mt p T (fun W => (forall j, (j < p)%nat -> size W j = 0 \/ a * g <= size W j) ->
    forall V, (forall j u, (j < p)%nat -> (u < T)%nat -> size W j = 0 -> V j u = 0) ->
      quad_loss_mt n T Y (lin_mt p X W) <= quad_loss_mt n T Y (lin_mt p X V) + t * Sum p (size (fun j u => W j u - V j u))) fit.
Proof.
  intros Hn HF Hac HS (Et & Ht & H1 & H2 & H3 & H4) size. pose proof (proj1 (multi_run srt VS n p Hn T X Y _ s fit HF)) as Hr.
  destruct (bmcp_eventually srt VS n p Hn T X Y a g s fit HF HS t Hac Et Ht H1 H2 H3 H4) as [(N & W & HC & Hall)|(N & Hall)]; exists N; intros m Hm.
  - exists W. split; [auto|]. intros Hb V HV. apply (unbiased_mt n p T Hn X Y a g t W Hr Ht); auto. intros j Hj. apply (proj2 (HC j Hj)). exact (Hb j Hj).
  - destruct (Hall m Hm) as (W & E & Hst). exists W. split; [auto|]. intros Hb V HV. apply (unbiased_mt n p T Hn X Y a g t W Hr Ht); auto.
Qed.

(** orthogonal columns: both rows keep their norms 2 and 1 *)
Definition fit_shB m := ok (mt_solver_call (dsort xops) (dense_dm xops) (qmt_dense xops) (BlockMcpPen (1/10) 3) (solver_max_iterations m (settings kpr)) (Dataset (xm 2 3 orX) (T2 (xm 2 2 orY))) (QuadMT [] (Mat 0 0 []))).
Lemma shB_fit : multi_fit (dsort xops) 2 3 2 orX orY (BlockMcpPen (1/10) 3) (settings kpr) fit_shB /\ accepted fit_shB /\ gamma_ok Rlt 3 Squared 2 3 orX /\ patient 3 2 (settings kpr) (1/100).
Proof.
  split; [apply (mt_solve_dense (dsort xops) 2 3 2 orX orY (BlockMcpPen (1/10) 3) (settings kpr) (QuadMT [] (Mat 0 0 [])) (T2 (xm 2 2 orY))); [left; reflexivity|simpl; lra]|].
  split; [intros m e; unfold fit_shB; destruct (mt_solver_call _ _ _ _ _ _ _); discriminate|]. split; [exact (proj1 sh_steps)|]. unfold patient. cbn. repeat split; try lra; try lia; left; reflexivity.
Qed.
Lemma shB_unbiased : settles_mt 3 2 (fun W => (forall j, (j < 3)%nat -> norm2 (map (W j) (seq 0 2)) = 0 \/ 1/10 * 3 <= norm2 (map (W j) (seq 0 2))) /\ W 1%nat 0%nat = 3/5) fit_shB.
Proof.
  destruct shB_fit as (HF & HA & HG & HP). exists 1%nat, (closed_form_mt (BlockMcpPen (1/10) 3) 2 2 orX orY). split.
  - assert (E : forall j r, (j < 2)%nat -> Sum 2 (fun i => orX i j * ory i) / INR 2 = r -> Sum 2 (fun i => orX i j ^ 2) / INR 2 = 1 -> 3/10 < r -> forall t, closed_form_mt (BlockMcpPen (1/10) 3) 2 2 orX orY j t = Sum 2 (fun i => orX i j * orY i t) / INR 2).
    { intros j r Hj E1 E2 Hr t. unfold closed_form_mt. cbv zeta. rewrite or_norm, E1, E2, Rabs_right by lra. cbn [of_norm shrunk]. destruct (Rle_dec _ _); [exfalso; lra|]. unfold Rdiv at 1 3. rewrite Rinv_1, Rmult_1_r, Rmult_assoc, Rinv_l by lra. ring. }
    assert (E0 := E 0%nat 2 ltac:(lia) ltac:(unfold Sum; simpl; lra) ltac:(unfold Sum; simpl; lra) ltac:(lra)). assert (E1 := E 1%nat 1 ltac:(lia) ltac:(unfold Sum; simpl; lra) ltac:(unfold Sum; simpl; lra) ltac:(lra)). split.
    + intros j Hj. destruct j as [|[|[|j]]]; [right|right|left|lia].
      * rewrite (map_ext _ _ E0), or_norm. replace (Sum 2 (fun i => orX i 0%nat * ory i) / INR 2) with 2 by (unfold Sum; simpl; lra). rewrite Rabs_right; lra.
      * rewrite (map_ext _ _ E1), or_norm. replace (Sum 2 (fun i => orX i 1%nat * ory i) / INR 2) with 1 by (unfold Sum; simpl; lra). rewrite Rabs_right; lra.
      * rewrite (map_ext _ (fun _ => 0)); [exact (norm2_0 2)|]. intros t. unfold closed_form_mt. cbv zeta. replace (Sum 2 (fun i => orX i 2%nat * orY i t)) with 0 by (unfold Sum; simpl; lra). unfold Rdiv. ring.
    + rewrite E1. unfold Sum, orY. simpl. lra.
  - destruct HP as (Et & Ht & _ & H2 & _ & H4).
    destruct (orth_multi (dsort xops) xr_sort 2 3 ltac:(lia) 2 orX orY (BlockMcpPen (1/10) 3) (settings kpr) fit_shB (1/100) HF HA eq_refl ltac:(lra) or_orth (proj1 (conj (steps_lt_le _ _ _ _ _ (proj1 sh_steps)) I)) ltac:(cbn; lia) H2 ltac:(left; reflexivity)) as [[Q _]|[_ Q]]; [exfalso|exact Q].
    specialize (Q 0%nat ltac:(lia)). rewrite or_norm in Q. cbn [zero_level slope_mt] in Q. replace (Sum 2 (fun i => orX i 0%nat * ory i) / INR 2) with 2 in Q by (unfold Sum; simpl; lra). rewrite Rabs_right in Q; lra.
Qed.
