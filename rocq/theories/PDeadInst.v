(** Dead columns of dense and compressed-column designs. *)
From Coq Require Import List ZArith Bool Arith Lia.
From Verif Require Import Ops Arr MUtils MDatasets MDatafits MPenalties
  MCd MHyper MEstimators PBase SpecSolve SpecNan SpecDead PStruct PShape PNull PNan PRuns PPoison PPoisonFit PPoisonEst PNanCol PDead.
Import ListNotations.
Local Open Scope nat_scope.

Section Inst.
Context {F : Type} (o : FOps F) (SP : nan_spreads o) (ZS : zero_spreads o) (srt : list F -> list nat).
Notation z0 := (f0 o).
Notation zn := (zero_or_nan o).

(** *** dense *)
Section Dense.
Variables (n p : nat) (X X' : mat F) (dead : list nat).
Hypothesis (HX : shaped n p X) (HX' : shaped n p X') (HE : differ_only dead X X').
Lemma same_colv j : ~ In j dead -> colv z0 X j = colv z0 X' j.
Proof using HX HX' HE.
  intros Hj. assert (LL : length (mrows X) = length (mrows X')) by (destruct HX as (N & _ & L & _), HX' as (N' & _ & L' & _); congruence). unfold colv.
  apply list_eq_nth; [rewrite !map_length; congruence|]. intros i d Hi. rewrite map_length in Hi. assert (Hi' : i < length (mrows X')) by (rewrite <- LL; exact Hi).
  rewrite (nth_indep (map _ (mrows X)) d (nth j [] z0)), (nth_indep (map _ (mrows X')) d (nth j [] z0)) by (rewrite map_length; assumption). rewrite !(map_nth (fun r => nth j r z0)).
  assert (E := HE i (nth i (mrows X) []) (nth i (mrows X') []) j (nth_error_nth' _ _ Hi) (nth_error_nth' _ _ Hi') Hj).
  set (r := nth i (mrows X) []) in *. set (r' := nth i (mrows X') []) in *.
  destruct (nth_error r j) as [x|] eqn:E1; symmetry in E.
  - rewrite (nth_error_nth _ _ _ E1), (nth_error_nth _ _ _ E). reflexivity.
  - apply nth_error_None in E1, E. rewrite !nth_overflow by assumption. reflexivity.
Qed.
Lemma same_cols {B} (f : list F -> B) j : ~ In j dead -> vget (map f (cols z0 X)) j = vget (map f (cols z0 X')) j.
Proof using HX HX' HE.
  intros Hj. assert (C := proj1 (proj2 HX)). assert (C' := proj1 (proj2 HX')). unfold vget, cols. rewrite !nth_error_map, C, C'.
  destruct (nth_error (seq 0 p) j) as [k|] eqn:Ek; [|reflexivity]. assert (k = j).
  { assert (j < p) by (rewrite <- (seq_length p 0); apply nth_error_Some; congruence). rewrite (nth_error_nth' _ 0) in Ek by (rewrite seq_length; lia). rewrite seq_nth in Ek by lia. cbn in Ek. congruence. }
  subst k. cbn [option_map]. rewrite (same_colv j Hj). reflexivity.
Qed.
Lemma same_mcol j : ~ In j dead -> mcol z0 X j = mcol z0 X' j.
Proof using HX HX' HE. intros Hj. unfold mcol. rewrite (same_colv j Hj). destruct HX as (_ & -> & _), HX' as (_ & -> & _). reflexivity. Qed.
End Dense.
Lemma dead_dot n p X j b : shaped n p X -> j < p -> dead_column o X j -> length b = n -> zn (ndot o (colv z0 X j) b).
Proof using SP ZS.
  intros HX Hp HD Hb. assert (HL : length (colv z0 X j) = length b) by (unfold colv; rewrite map_length; destruct HX as (N & _ & [L _]); congruence).
  destruct HD as [(r & x & Hr & Hx & HN)|HZ].
  - right. apply (sp_ndot o SP _ _ x HL); [left|exact HN]. unfold colv. apply in_map_iff. exists r. split; [apply nth_error_nth; exact Hx|exact Hr].
  - apply (zs_dot o ZS _ _ HL). apply Forall_forall. intros x Hx. unfold colv in Hx. apply in_map_iff in Hx as (r & <- & Hr). apply (HZ r); [exact Hr|]. apply nth_error_nth'.
    destruct HX as (_ & C & _ & HF). rewrite Forall_forall in HF. rewrite (HF r Hr). lia.
Qed.
Lemma cols_at {B} (f : list F -> B) n p X j : shaped n p X -> j < p -> vget (map f (cols z0 X)) j = Ret (f (colv z0 X j)).
Proof using.
  intros (_ & C & _) Hj. unfold vget, cols. rewrite !nth_error_map, C. rewrite (nth_error_nth' _ 0) by (rewrite seq_length; lia). rewrite seq_nth by lia. reflexivity.
Qed.
Lemma colv_len n p X j : shaped n p X -> length (colv z0 X j) = n.
Proof using. intros (N & _ & [L _]). unfold colv. rewrite map_length. congruence. Qed.
Lemma dense_upd_len X n Xw u j Xw' : length Xw = n -> dense_update o X Xw u j = Ret Xw' -> length Xw' = n.
Proof using.
  intros HL E. unfold dense_update in E. next E. unfold vaxpy in E. destruct (Nat.eqb_spec (length Xw) (length x)); [|destruct x as [|? [|]]; try discriminate; injection E as <-; rewrite map_length; lia]. injection E as <-. unfold map2. rewrite map_length, combine_length. lia.
Qed.

Section DenseFit.
Variables (n p : nat) (X X' : mat F) (dead : list nat) (t : targets F).
Hypothesis (HX : shaped n p X) (HX' : shaped n p X') (Ht : target1_wf n t) (Hlt : forall j, In j dead -> j < p).
Hypothesis (HD : forall j, In j dead -> dead_column o X j /\ dead_column o X' j) (HE : differ_only dead X X').
Lemma lasso_dense_same q d0 s mi me tol K a v : fisneg o (l1_alpha q) = false -> a = false \/ me <= K ->
  coordinate_descent o (dense_dm o) (quad_dense o) (l1_penalty o) srt (Dataset X t) d0 q s mi me tol K a v =
  coordinate_descent o (dense_dm o) (quad_dense o) (l1_penalty o) srt (Dataset X' t) d0 q s mi me tol K a v.
Proof using SP ZS HX HX' Ht Hlt HD HE.
  intros Hq Ha. destruct (single_ok o n t Ht) as (y & Ey & Ly). assert (Hn := target1_ns n t Ht).
  assert (I : forall Z, shaped n p Z -> df_initialize (quad_dense o) d0 (Dataset Z t) =
    Ret (Quad (map (fun Xj => fdiv o (ndot o Xj Xj) (fcast o n)) (cols z0 Z)) (map (fun c => ndot o c y) (cols z0 Z)))).
  { intros Z HZ. cbn [df_initialize quad_dense]. unfold quad_dense_initialize. cbn [dtargets design_matrix]. rewrite Ey, Hn. cbn [bind]. unfold mtv. destruct HZ as (-> & _). rewrite Ly, Nat.eqb_refl. reflexivity. }
  assert (G : forall Z Xw j, shaped n p Z -> length Xw = n -> In j dead -> dead_column o Z j -> exists g, zn g /\
    df_gradient_j (quad_dense o) (Quad (map (fun Xj => fdiv o (ndot o Xj Xj) (fcast o n)) (cols z0 Z)) (map (fun c => ndot o c y) (cols z0 Z))) (Dataset Z t) Xw j = Ret g).
  { intros Z Xw j HZ HL Hj HC. cbn [df_gradient_j quad_dense]. unfold quad_dense_gradient_j. cbn [design_matrix q_Xty dtargets]. unfold mcol.
    assert (HZ' := HZ). destruct HZ' as (_ & -> & _). destruct (Nat.ltb_spec j p) as [_|Hge]; [|specialize (Hlt j Hj); lia]. cbn [bind].
    unfold vdot. rewrite (colv_len n p Z j HZ), HL, Nat.eqb_refl. cbn [bind]. rewrite (cols_at _ n p Z j HZ (Hlt j Hj)). cbn [bind].
    eexists. split; [|reflexivity]. apply (zs_mul o ZS), (zs_add o ZS); apply (dead_dot n p); auto. }
  refine (sim_cd o SP ZS (dense_dm o) (quad_dense o) srt (Dataset X t) (Dataset X' t) _ _ q dead n p Hq _ eq_refl _ _ _ _ (fun _ => eq_refl) _ _ d0 s mi me tol K a v _ Hn Hlt (I X HX) (I X' HX') Ha).
  - cbn. destruct HX as (_ & -> & _), HX' as (_ & -> & _). reflexivity.
  - intros j Hj. cbn [df_step_size quad_dense q_lipschitz]. apply (same_cols n p X X' dead HX HX' HE); assumption.
  - intros Xw j _ Hj. cbn [df_gradient_j quad_dense]. unfold quad_dense_gradient_j. cbn [design_matrix q_Xty dtargets]. rewrite (same_mcol n p X X' dead HX HX' HE j Hj).
    rewrite (same_cols n p X X' dead HX HX' HE _ j Hj). reflexivity.
  - intros Xw u j _ Hj. cbn [dm_update dense_dm design_matrix]. unfold dense_update. rewrite (same_mcol n p X X' dead HX HX' HE j Hj). reflexivity.
  - intros Xw u j Xw'. apply dense_upd_len.
  - intros j Hj. cbn [df_step_size quad_dense q_lipschitz]. rewrite (cols_at _ n p X j HX (Hlt j Hj)), (cols_at _ n p X' j HX' (Hlt j Hj)). destruct (HD j Hj) as [D1 D2]. eexists. eexists. split; [reflexivity|]. split; [reflexivity|].
    split; apply (zs_mul o ZS); eapply dead_dot; eauto using colv_len.
  - intros Xw j HL Hj. destruct (HD j Hj) as [D1 D2]. destruct (G X Xw j HX HL Hj D1) as (g & Z1 & E1). destruct (G X' Xw j HX' HL Hj D2) as (g' & Z2 & E2). exists g, g'. auto.
  - cbn. destruct HX as (_ & -> & _). reflexivity.
Qed.
Lemma log_dense_same q d0 s mi me tol K a v : fisneg o (l1_alpha q) = false -> a = false \/ me <= K ->
  coordinate_descent o (dense_dm o) (log_dense o) (l1_penalty o) srt (Dataset X t) d0 q s mi me tol K a v =
  coordinate_descent o (dense_dm o) (log_dense o) (l1_penalty o) srt (Dataset X' t) d0 q s mi me tol K a v.
Proof using SP ZS HX HX' Ht Hlt HD HE.
  intros Hq Ha. destruct (single_ok o n t Ht) as (y & Ey & Ly). assert (Hn := target1_ns n t Ht).
  assert (G : forall Z d Xw j, shaped n p Z -> length Xw = n -> In j dead -> dead_column o Z j -> exists g, zn g /\
    df_gradient_j (log_dense o) d (Dataset Z t) Xw j = Ret g).
  { intros Z d Xw j HZ HL Hj HC. cbn [df_gradient_j log_dense]. unfold log_dense_gradient_j. cbn [design_matrix dtargets]. rewrite Ey. cbn [bind]. unfold mcol.
    assert (HZ' := HZ). destruct HZ' as (_ & -> & _). destruct (Nat.ltb_spec j p) as [_|Hge]; [|specialize (Hlt j Hj); lia]. cbn [bind].
    assert (HL2 : length (map2 (fun y_i xw_i => fmul o y_i (sigmoid o (fmul o (fneg o y_i) xw_i))) y Xw) = n) by (unfold map2; rewrite map_length, combine_length; lia).
    unfold vdot. rewrite (colv_len n p Z j HZ), HL2, Nat.eqb_refl. cbn [bind].
    eexists. split; [|reflexivity]. apply (zs_mul o ZS), (zs_neg o ZS). apply (dead_dot n p); auto. }
  refine (sim_cd o SP ZS (dense_dm o) (log_dense o) srt (Dataset X t) (Dataset X' t) _ _ q dead n p Hq _ eq_refl _ _ _ _ (fun _ => eq_refl) _ _ d0 s mi me tol K a v _ Hn Hlt eq_refl eq_refl Ha).
  - cbn. destruct HX as (_ & -> & _), HX' as (_ & -> & _). reflexivity.
  - intros j Hj. cbn [df_step_size log_dense l_lipschitz dtargets design_matrix]. apply (same_cols n p X X' dead HX HX' HE); assumption.
  - intros Xw j _ Hj. cbn [df_gradient_j log_dense]. unfold log_dense_gradient_j. cbn [design_matrix dtargets]. rewrite (same_mcol n p X X' dead HX HX' HE j Hj). reflexivity.
  - intros Xw u j _ Hj. cbn [dm_update dense_dm design_matrix]. unfold dense_update. rewrite (same_mcol n p X X' dead HX HX' HE j Hj). reflexivity.
  - intros Xw u j Xw'. apply dense_upd_len.
  - intros j Hj. cbn [df_step_size log_dense l_lipschitz dtargets design_matrix]. rewrite (cols_at _ n p X j HX (Hlt j Hj)), (cols_at _ n p X' j HX' (Hlt j Hj)). destruct (HD j Hj) as [D1 D2]. eexists. eexists. split; [reflexivity|]. split; [reflexivity|].
    split; apply (zs_mul o ZS); eapply dead_dot; eauto using colv_len.
  - intros Xw j HL Hj. destruct (HD j Hj) as [D1 D2]. destruct (G X (Logi (map (fun Xj => fdiv o (ndot o Xj Xj) (fcast o (4 * n_samples t))) (cols z0 X))) Xw j HX HL Hj D1) as (g & Z1 & E1).
    destruct (G X' (Logi (map (fun Xj => fdiv o (ndot o Xj Xj) (fcast o (4 * n_samples t))) (cols z0 X'))) Xw j HX' HL Hj D2) as (g' & Z2 & E2). exists g, g'. auto.
  - cbn. destruct HX as (_ & -> & _). reflexivity.
Qed.
End DenseFit.

(** *** compressed columns *)
Lemma sparse_upd_len X n Xw u j Xw' : length Xw = n -> sparse_update o X Xw u j = Ret Xw' -> length Xw' = n.
Proof using.
  intros HL E. unfold sparse_update in E. next E. apply (foldM_inv (fun l => length l = n)) in E; [exact E|exact HL|].
  intros b c b' _ Hb Eb. next Eb. next Eb. next Eb. rewrite (vsetz_len _ _ _ _ Eb). exact Hb.
Qed.
(** a fold over the entries of a dead column *)
Lemma dead_fold {S} (pj : S -> F) (f : S -> Z -> res S) n p X j r s s' : csc_wf n p X -> dead_column_csc o X j -> @csc_range F X j = Ret r ->
  (forall a k a', f a k = Ret a' -> exists x, vgetz (cdata X) k = Ret x /\ (zn (pj a) -> zn x -> zn (pj a')) /\ (fisnan o (pj a) = true -> fisnan o (pj a') = true) /\ (fisnan o x = true -> fisnan o (pj a') = true)) ->
  foldM f r s = Ret s' -> zn (pj s) -> zn (pj s').
Proof using.
  intros HX HD Er HF E Hs. destruct HD as [(lo & hi & k & x & H1 & H2 & H0 & Hk & Hx & HN)|HZ].
  - right. apply (foldM_hit (fun a => fisnan o (pj a) = true) _ _ _ _ E).
    + intros a b a' Eb Ha. destruct (HF _ _ _ Eb) as (_ & _ & _ & H & _). exact (H Ha).
    + right. exists k. split; [exact (range_in _ _ _ _ _ _ H1 H2 Hk Er)|]. intros a a' Eb. destruct (HF _ _ _ Eb) as (x' & Ex & _ & _ & H).
      apply H. unfold vgetz in Ex. destruct (_ <? _)%Z; [discriminate|]. apply vget_ne in Ex. congruence.
  - apply (foldM_inv (fun a => zn (pj a))) in E; [exact E|exact Hs|].
    intros a b a' Hb Ha Eb. destruct (HF _ _ _ Eb) as (x' & Ex & H & _). apply (H Ha). left.
    unfold csc_range in Er. next Er. next Er. injection Er as <-. apply vget_ne in Ex0, Ex1. apply zrange_in in Hb.
    unfold vgetz in Ex. destruct (_ <? _)%Z; [discriminate|]. apply vget_ne in Ex. exact (HZ _ _ _ _ Ex0 Ex1 Hb Ex).
Qed.
Section Sparse.
Variables (n p : nat) (X X' : csc F) (dead : list nat).
Hypothesis (HE : differ_only_csc dead X X').
Lemma same_range j : csc_range X j = csc_range X' j.
Proof using HE. unfold csc_range. destruct HE as (-> & _). reflexivity. Qed.
Lemma same_data j r k : ~ In j dead -> csc_range X j = Ret r -> In k r -> vgetz (cdata X) k = vgetz (cdata X') k.
Proof using HE.
  intros Hj Er Hk. unfold csc_range in Er. next Er. next Er. injection Er as <-. apply vget_ne in Ex, Ex0. apply zrange_in in Hk.
  unfold vgetz, vget. destruct (_ <? _)%Z; [reflexivity|]. destruct HE as (_ & _ & H). rewrite (H _ _ _ _ Hj Ex Ex0 Hk). reflexivity.
Qed.
Lemma same_upd Xw u j : ~ In j dead -> sparse_update o X Xw u j = sparse_update o X' Xw u j.
Proof using HE.
  intros Hj. unfold sparse_update. rewrite <- same_range. destruct (csc_range X j) as [r|] eqn:Er; cbn [bind]; [|reflexivity].
  apply foldM_ext. intros s k Hk. destruct HE as (_ & <- & _). rewrite (same_data j r k Hj Er Hk). reflexivity.
Qed.
End Sparse.
Lemma mapM_same {B} (f f' : nat -> res B) p l l' j : mapM f (seq 0 p) = Ret l -> mapM f' (seq 0 p) = Ret l' -> f j = f' j -> nth_error l j = nth_error l' j.
Proof using.
  intros E E' H. assert (L := mapM_len _ _ _ E). assert (L' := mapM_len _ _ _ E'). rewrite seq_length in L, L'.
  destruct (nth_error l j) as [b|] eqn:Eb.
  - assert (Q := mapM_seq _ _ _ _ _ _ E Eb). cbn [Nat.add] in Q. destruct (nth_error l' j) as [b'|] eqn:Eb'.
    + assert (Q' := mapM_seq _ _ _ _ _ _ E' Eb'). cbn [Nat.add] in Q'. congruence.
    + apply nth_error_None in Eb'. assert (j < length l) by (apply nth_error_Some; congruence). lia.
  - symmetry. apply nth_error_None. apply nth_error_None in Eb. lia.
Qed.

Section SparseFit.
Variables (n p : nat) (X X' : csc F) (dead : list nat) (t : targets F).
Hypothesis (HX : csc_wf n p X) (HX' : csc_wf n p X') (Ht : target1_wf n t) (Hlt : forall j, In j dead -> j < p).
Hypothesis (HD : forall j, In j dead -> dead_column_csc o X j /\ dead_column_csc o X' j) (HE : differ_only_csc dead X X').
Lemma lasso_sparse_same q d0 s mi me tol K a v : fisneg o (l1_alpha q) = false -> a = false \/ me <= K ->
  coordinate_descent o (sparse_dm o) (quad_sparse o) (l1_penalty o) srt (Dataset X t) d0 q s mi me tol K a v =
  coordinate_descent o (sparse_dm o) (quad_sparse o) (l1_penalty o) srt (Dataset X' t) d0 q s mi me tol K a v.
Proof using SP ZS HX HX' Ht Hlt HD HE.
  intros Hq Ha. destruct (single_ok o n t Ht) as (y & Ey & Ly). assert (Hn := target1_ns n t Ht).
  assert (P1 := sh_nf _ _ _ _ (sparse_sh o n p X HX)). assert (P2 := sh_nf _ _ _ _ (sparse_sh o n p X' HX')).
  destruct (quad_sparse_sh o n p X t d0 HX Ht) as (d & Ed & G1 & G2 & G3). destruct (quad_sparse_sh o n p X' t d0 HX' Ht) as (d' & Ed' & G1' & G2' & G3').
  set (step := fun (Z : csc F) j => r <- csc_range Z j ;; '(nrm2, xty) <- foldM (fun acc idx => x <- vgetz (cdata Z) idx ;; i <- vgetz (cindices Z) idx ;; yi <- vgetz y i ;;
    Ret (fadd o (fst acc) (fmul o x x), fadd o (snd acc) (fmul o x yi))) r (z0, z0) ;; Ret (fdiv o nrm2 (fcast o n), xty)).
  assert (I : forall Z dz, csc_wf n p Z -> df_initialize (quad_sparse o) d0 (Dataset Z t) = Ret dz -> exists l, mapM (step Z) (seq 0 p) = Ret l /\ dz = Quad (map fst l) (map snd l)).
  { intros Z dz HZ E. cbn [df_initialize quad_sparse] in E. unfold quad_sparse_initialize in E. cbn [dtargets design_matrix] in E. assert (PZ := sh_nf _ _ _ _ (sparse_sh o n p Z HZ)). cbn in PZ.
    rewrite PZ, Ey, Hn in E. cbn [bind] in E. next E. injection E as <-. exists x. split; [exact Ex|reflexivity]. }
  destruct (I X d HX Ed) as (l & El & ->). destruct (I X' d' HX' Ed') as (l' & El' & ->). clear I.
  assert (SE : forall j, ~ In j dead -> step X j = step X' j).
  { intros j Hj. unfold step. rewrite <- (same_range X X' dead HE). destruct (csc_range X j) as [r|] eqn:Er; cbn [bind]; [|reflexivity].
    replace (foldM (fun acc idx => x <- vgetz (cdata X') idx ;; i <- vgetz (cindices X') idx ;; yi <- vgetz y i ;; Ret (fadd o (fst acc) (fmul o x x), fadd o (snd acc) (fmul o x yi))) r (z0, z0))
      with (foldM (fun acc idx => x <- vgetz (cdata X) idx ;; i <- vgetz (cindices X) idx ;; yi <- vgetz y i ;; Ret (fadd o (fst acc) (fmul o x x), fadd o (snd acc) (fmul o x yi))) r (z0, z0)); [reflexivity|].
    apply foldM_ext. intros u k Hk. destruct HE as (_ & <- & _). rewrite (same_data X X' dead HE j r k Hj Er Hk). reflexivity. }
  assert (SD : forall Z j b c, csc_wf n p Z -> dead_column_csc o Z j -> step Z j = Ret (b, c) -> zn b /\ zn c).
  { intros Z j b c HZ HC E. unfold step in E. next E. next E. destruct x0 as [b0 c0]. injection E as <- <-.
    assert (HF : forall (pj : F * F -> F), (forall u (k : BinNums.Z) u', (x <- vgetz (cdata Z) k ;; i <- vgetz (cindices Z) k ;; yi <- vgetz y i ;; Ret (fadd o (fst u) (fmul o x x), fadd o (snd u) (fmul o x yi))) = Ret u' ->
        exists x z, vgetz (cdata Z) k = Ret x /\ pj u' = fadd o (pj u) (fmul o x z)) -> pj (z0, z0) = z0 -> zn (pj (b0, c0))).
    { intros pj HP H0. apply (dead_fold pj _ n p Z j x _ _ HZ HC Ex) with (2 := Ex0); [|rewrite H0; left; apply (zs_zero o ZS)].
      intros u k u' Eu. destruct (HP _ _ _ Eu) as (x1 & z1 & E1 & E2). exists x1. rewrite E2. split; [exact E1|]. split; [|split].
      - intros Hu Hx. apply (zs_add o ZS); [exact Hu|]. apply (zs_mul o ZS). exact Hx.
      - intros Hu. apply (s_addl o SP). exact Hu.
      - intros Hx. apply (s_addr o SP), (s_mull o SP). exact Hx. }
    split.
    - apply (zs_mul o ZS). apply (HF fst); [|reflexivity]. intros u k u' Eu. next Eu. next Eu. next Eu. injection Eu as <-. eexists. eexists. split; reflexivity.
    - apply (HF snd); [|reflexivity]. intros u k u' Eu. next Eu. next Eu. next Eu. injection Eu as <-. eexists. eexists. split; reflexivity. }
  assert (AT : forall Z lz j, csc_wf n p Z -> mapM (step Z) (seq 0 p) = Ret lz -> In j dead -> dead_column_csc o Z j -> exists b c, nth_error lz j = Some (b, c) /\ zn b /\ zn c).
  { intros Z lz j HZ E Hj HC. assert (L := mapM_len _ _ _ E). rewrite seq_length in L. specialize (Hlt j Hj). destruct (nth_error lz j) as [[b c]|] eqn:Eb; [|apply nth_error_None in Eb; lia].
    assert (Q := mapM_seq _ _ _ _ _ _ E Eb). cbn [Nat.add] in Q. exists b, c. split; [reflexivity|]. exact (SD _ _ _ _ HZ HC Q). }
  assert (GD : forall Z lz Xw j g, csc_wf n p Z -> mapM (step Z) (seq 0 p) = Ret lz -> In j dead -> dead_column_csc o Z j ->
     df_gradient_j (quad_sparse o) (Quad (map fst lz) (map snd lz)) (Dataset Z t) Xw j = Ret g -> zn g).
  { intros Z lz Xw j g HZ E Hj HC Eg. destruct (AT Z lz j HZ E Hj HC) as (b & c & Ebc & Zb & Zc). cbn [df_gradient_j quad_sparse] in Eg. unfold quad_sparse_gradient_j in Eg. cbn [design_matrix dtargets q_Xty] in Eg.
    next Eg. next Eg. next Eg. injection Eg as <-. apply vget_ne in Ex1. rewrite nth_error_map, Ebc in Ex1. cbn in Ex1. injection Ex1 as <-. apply (zs_mul o ZS), (zs_add o ZS); [|exact Zc].
    apply (dead_fold (fun u => u) _ n p Z j x _ _ HZ HC Ex) with (2 := Ex0); [|left; apply (zs_zero o ZS)].
    intros u k u' Eu. next Eu. next Eu. next Eu. injection Eu as <-. eexists. split; [reflexivity|]. split; [|split].
    - intros Hu Hx. apply (zs_add o ZS); [exact Hu|]. apply (zs_mul o ZS). exact Hx.
    - intros Hu. apply (s_addl o SP). exact Hu.
    - intros Hx. apply (s_addr o SP), (s_mull o SP). exact Hx. }
  refine (sim_cd o SP ZS (sparse_dm o) (quad_sparse o) srt (Dataset X t) (Dataset X' t) _ _ q dead n p Hq _ eq_refl _ _ _ _ (fun _ => eq_refl) _ _ d0 s mi me tol K a v P1 Hn Hlt Ed Ed' Ha).
  - cbn [design_matrix]. congruence.
  - intros j Hj. cbn [df_step_size quad_sparse q_lipschitz]. unfold vget. rewrite !nth_error_map, (mapM_same _ _ _ _ _ j El El' (SE j Hj)). reflexivity.
  - intros Xw j _ Hj. cbn [df_gradient_j quad_sparse]. unfold quad_sparse_gradient_j. cbn [design_matrix q_Xty dtargets]. rewrite <- (same_range X X' dead HE).
    destruct (csc_range X j) as [r|] eqn:Er; cbn [bind]; [|reflexivity]. unfold vget at 1 2. rewrite !nth_error_map, (mapM_same _ _ _ _ _ j El El' (SE j Hj)).
    apply bind_eq; [|reflexivity]. apply foldM_ext. intros u k Hk. destruct HE as (_ & <- & _). rewrite (same_data X X' dead HE j r k Hj Er Hk). reflexivity.
  - intros Xw u j _ Hj. exact (same_upd X X' dead HE Xw u j Hj).
  - intros Xw u j Xw'. apply sparse_upd_len.
  - intros j Hj. destruct (HD j Hj) as [D1 D2]. destruct (AT X l j HX El Hj D1) as (b & c & E1 & Z1 & _). destruct (AT X' l' j HX' El' Hj D2) as (b' & c' & E2 & Z2 & _).
    cbn [df_step_size quad_sparse q_lipschitz]. unfold vget. rewrite !nth_error_map, E1, E2. cbn. eauto 8.
  - intros Xw j HL Hj. destruct (HD j Hj) as [D1 D2]. destruct (G3 Xw j HL (Hlt j Hj)) as (g & Eg & _). destruct (G3' Xw j HL (Hlt j Hj)) as (g' & Eg' & _). exists g, g'.
    split; [exact Eg|]. split; [exact Eg'|]. split; [exact (GD _ _ _ _ _ HX El Hj D1 Eg)|exact (GD _ _ _ _ _ HX' El' Hj D2 Eg')].
Qed.
Lemma log_sparse_same q d0 s mi me tol K a v : fisneg o (l1_alpha q) = false -> a = false \/ me <= K ->
  coordinate_descent o (sparse_dm o) (log_sparse o) (l1_penalty o) srt (Dataset X t) d0 q s mi me tol K a v =
  coordinate_descent o (sparse_dm o) (log_sparse o) (l1_penalty o) srt (Dataset X' t) d0 q s mi me tol K a v.
Proof using SP ZS HX HX' Ht Hlt HD HE.
  intros Hq Ha. assert (Hn := target1_ns n t Ht).
  assert (P1 := sh_nf _ _ _ _ (sparse_sh o n p X HX)). assert (P2 := sh_nf _ _ _ _ (sparse_sh o n p X' HX')).
  destruct (log_sparse_sh o n p X t d0 HX Ht) as (d & Ed & G1 & G2 & G3). destruct (log_sparse_sh o n p X' t d0 HX' Ht) as (d' & Ed' & G1' & G2' & G3').
  set (step := fun (Z : csc F) j => r <- csc_range Z j ;; nrm2 <- foldM (fun acc idx => x <- vgetz (cdata Z) idx ;; Ret (fadd o acc (fmul o x x))) r z0 ;; Ret (fdiv o nrm2 (fcast o (4 * n)))).
  assert (I : forall Z dz, csc_wf n p Z -> df_initialize (log_sparse o) d0 (Dataset Z t) = Ret dz -> exists l, mapM (step Z) (seq 0 p) = Ret l /\ dz = Logi l).
  { intros Z dz HZ E. cbn [df_initialize log_sparse] in E. unfold log_sparse_initialize in E. cbn [dtargets design_matrix] in E. assert (PZ := sh_nf _ _ _ _ (sparse_sh o n p Z HZ)). cbn in PZ.
    rewrite PZ, Hn in E. cbn [bind] in E. next E. injection E as <-. exists x. split; [exact Ex|reflexivity]. }
  destruct (I X d HX Ed) as (l & El & ->). destruct (I X' d' HX' Ed') as (l' & El' & ->). clear I.
  assert (SE : forall j, ~ In j dead -> step X j = step X' j).
  { intros j Hj. unfold step. rewrite <- (same_range X X' dead HE). destruct (csc_range X j) as [r|] eqn:Er; cbn [bind]; [|reflexivity].
    apply bind_eq; [|reflexivity]. apply foldM_ext. intros u k Hk. rewrite (same_data X X' dead HE j r k Hj Er Hk). reflexivity. }
  assert (AT : forall Z lz j, csc_wf n p Z -> mapM (step Z) (seq 0 p) = Ret lz -> In j dead -> dead_column_csc o Z j -> exists b, nth_error lz j = Some b /\ zn b).
  { intros Z lz j HZ E Hj HC. assert (L := mapM_len _ _ _ E). rewrite seq_length in L. specialize (Hlt j Hj). destruct (nth_error lz j) as [b|] eqn:Eb; [|apply nth_error_None in Eb; lia].
    assert (Q := mapM_seq _ _ _ _ _ _ E Eb). cbn [Nat.add] in Q. exists b. split; [reflexivity|]. unfold step in Q. next Q. next Q. injection Q as <-. apply (zs_mul o ZS).
    apply (dead_fold (fun u => u) _ n p Z j x _ _ HZ HC Ex) with (2 := Ex0); [|left; apply (zs_zero o ZS)].
    intros u k u' Eu. next Eu. injection Eu as <-. eexists. split; [reflexivity|]. split; [|split].
    - intros Hu Hx. apply (zs_add o ZS); [exact Hu|]. apply (zs_mul o ZS). exact Hx.
    - intros Hu. apply (s_addl o SP). exact Hu.
    - intros Hx. apply (s_addr o SP), (s_mull o SP). exact Hx. }
  assert (GD : forall Z dz Xw j g, csc_wf n p Z -> In j dead -> dead_column_csc o Z j -> df_gradient_j (log_sparse o) dz (Dataset Z t) Xw j = Ret g -> zn g).
  { intros Z dz Xw j g HZ Hj HC Eg. cbn [df_gradient_j log_sparse] in Eg. unfold log_sparse_gradient_j in Eg. cbn [design_matrix dtargets] in Eg.
    next Eg. next Eg. apply (dead_fold (fun u => u) _ n p Z j x0 _ _ HZ HC Ex0) with (2 := Eg); [|left; apply (zs_zero o ZS)].
    intros u k u' Eu. next Eu. next Eu. next Eu. next Eu. injection Eu as <-. eexists. split; [reflexivity|]. split; [|split].
    - intros Hu Hx. apply (zs_add o ZS); [exact Hu|]. apply (zs_mul o ZS), (zs_mul o ZS), (zs_mul o ZS). exact Hx.
    - intros Hu. apply (s_subl o SP). exact Hu.
    - intros Hx. apply (s_subr o SP), (s_divl o SP), (s_mull o SP), (s_mull o SP). exact Hx. }
  refine (sim_cd o SP ZS (sparse_dm o) (log_sparse o) srt (Dataset X t) (Dataset X' t) _ _ q dead n p Hq _ eq_refl _ _ _ _ (fun _ => eq_refl) _ _ d0 s mi me tol K a v P1 Hn Hlt Ed Ed' Ha).
  - cbn [design_matrix]. congruence.
  - intros j Hj. cbn [df_step_size log_sparse l_lipschitz]. unfold vget. rewrite (mapM_same _ _ _ _ _ j El El' (SE j Hj)). reflexivity.
  - intros Xw j _ Hj. cbn [df_gradient_j log_sparse]. unfold log_sparse_gradient_j. cbn [design_matrix dtargets]. rewrite <- (same_range X X' dead HE).
    destruct (single_target z0 t) as [yy|]; cbn [bind]; [|reflexivity].
    destruct (csc_range X j) as [r|] eqn:Er; cbn [bind]; [|reflexivity]. apply foldM_ext. intros u k Hk. destruct HE as (_ & <- & _). rewrite (same_data X X' dead HE j r k Hj Er Hk). reflexivity.
  - intros Xw u j _ Hj. exact (same_upd X X' dead HE Xw u j Hj).
  - intros Xw u j Xw'. apply sparse_upd_len.
  - intros j Hj. destruct (HD j Hj) as [D1 D2]. destruct (AT X l j HX El Hj D1) as (b & E1 & Z1). destruct (AT X' l' j HX' El' Hj D2) as (b' & E2 & Z2).
    cbn [df_step_size log_sparse l_lipschitz]. unfold vget. rewrite E1, E2. eauto 8.
  - intros Xw j HL Hj. destruct (HD j Hj) as [D1 D2]. destruct (G3 Xw j HL (Hlt j Hj)) as (g & Eg & _). destruct (G3' Xw j HL (Hlt j Hj)) as (g' & Eg' & _). exists g, g'.
    split; [exact Eg|]. split; [exact Eg'|]. split; [exact (GD _ _ _ _ _ HX Hj D1 Eg)|exact (GD _ _ _ _ _ HX' Hj D2 Eg')].
Qed.
End SparseFit.
End Inst.
