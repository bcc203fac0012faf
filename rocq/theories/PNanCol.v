(** Lasso and sparse logistic regression: a column with a NaN never enters the model. *)
From Coq Require Import List ZArith Bool Arith Lia.
From Verif Require Import Ops Arr MUtils MDatasets MDatafits MDatafitsMT MPenalties MBlockPenalties
  MCd MBcd MHyper MEstimators PBase SpecSolve SpecNan PStruct PShape PNoPanic PNull PNan PRuns PPoison PPoisonMt PPoisonFit PPoisonEst XR IEEE PRunsEx PSortNanFit.
Import ListNotations.
Local Open Scope nat_scope.

Section Core.
Context {F DM D P : Type} (o : FOps F) (SP : nan_spreads o).
Context (dm : DesignMatrix F DM) (df : Datafit F DM D) (pen : Penalty F P) (srt : list F -> list nat).
Variables (ds : dataset DM F) (d : D) (p_ : P) (j : nat) (bad : list F -> Prop).
Hypothesis (Hlip : forall l, nth_error (df_step_size df d) j = Some l -> fisnan o l = true).
Hypothesis (Hprox : forall v s, fisnan o v = true -> pen_prox pen p_ v s = f0 o).
Hypothesis (Hext : forall ws w n Xa, In j ws -> dm_extrap dm (design_matrix ds) ws w n = Ret Xa -> n = n_samples (dtargets ds) -> bad Xa).
Hypothesis (Hval : forall Xw v, bad Xw -> df_value df d ds Xw = Ret v -> fisnan o v = true).
Definition off (w : list F) : Prop := forall x, nth_error w j = Some x -> x = f0 o.

Lemma off_step w Xw k w' Xw' : cd_step o dm df pen ds d p_ (w, Xw) k = Ret (w', Xw') -> off w -> off w'.
Proof using SP Hlip Hprox.
  intros E HO. unfold cd_step in E. next E. apply vget_ne in Ex. destruct (feq o x (f0 o)); [injection E as <- _; exact HO|].
  next E. next E. next E. cbv zeta in E.
  assert (HO' : off x2).
  { intros y Hy. destruct (vset_ne _ _ _ _ _ _ Ex2 Hy) as [[<- ->]|[_ Hy']]; [|exact (HO y Hy')]. apply Hprox. apply (s_subr o SP), (s_divr o SP). apply Hlip. exact Ex. }
  destruct (negb _); [next E|]; injection E as <- _; exact HO'.
Qed.
Lemma off_steps ws : forall w Xw w' Xw', foldM (cd_step o dm df pen ds d p_) ws (w, Xw) = Ret (w', Xw') -> off w -> off w'.
Proof using SP Hlip Hprox.
  induction ws as [|k ws IH]; intros w Xw w' Xw' E HO; cbn [foldM] in E; [injection E as <- _; exact HO|].
  next E. destruct x as [w1 X1]. eapply IH; [exact E|]. eapply off_step; eauto.
Qed.
Lemma scatter_off nf pt ws w : scatter o nf pt ws = Ret w -> ~ In j ws -> off w.
Proof using.
  unfold scatter. intros E Hj. assert (H0 : off (vzeros o nf)) by (intros x Hx; apply nth_error_In, repeat_spec in Hx; exact Hx).
  revert E. generalize (vzeros o nf) H0. revert ws Hj. induction pt as [|a pt IH]; intros [|k ws] Hj w0 HO E; cbn [combine foldM] in E; try (injection E as <-; exact HO).
  next E. cbn [fst snd] in Ex. apply (IH ws (fun H => Hj (or_intror H)) x); [|exact E].
  intros y Hy. destruct (vset_ne _ _ _ _ _ _ Ex Hy) as [[He _]|[_ Hy']]; [|exact (HO y Hy')]. exfalso. apply Hj. left. congruence.
Qed.
Lemma off_accel m w Xw ws e K v w' X' m' : off w -> anderson_accel o dm df pen ds d p_ m w Xw ws e K v = Ret (w', X', m') -> off w'.
Proof using SP Hext Hval.
  intros HO E. unfold anderson_accel in E. next E. next E. destruct (_ =? _); [|injection E as <- _ _; exact HO].
  next E. destruct x1 as [pt|]; [|injection E as <- _ _; exact HO]. next E. next E. next E. next E. cbv zeta in E.
  destruct (flt o _ _) eqn:El; injection E as <- _ _; [|exact HO].
  destruct (in_dec Nat.eq_dec j ws) as [Hj|Hj]; [|exact (scatter_off _ _ _ _ Ex2 Hj)].
  exfalso. rewrite (s_ltl o SP) in El; [discriminate|]. apply (s_addl o SP). exact (Hval _ _ (Hext _ _ _ _ Hj Ex3 eq_refl) Ex5).
Qed.
Lemma off_inner nf tol km K a v ws wsz es : forall w Xw m w' Xw',
  inner_loop o dm df pen ds d p_ nf tol km K a v ws wsz es w Xw m = Ret (w', Xw') -> off w -> off w'.
Proof using SP Hlip Hprox Hext Hval.
  induction es as [|e es IH]; intros w Xw m w' Xw' E HO; cbn [inner_loop] in E; [injection E as <- _; exact HO|].
  next E. destruct x as [w1 X1]. assert (H1 := off_steps _ _ _ _ _ Ex HO). next E. destruct x as [[w2 X2] m2].
  assert (H2 : off w2) by (destruct a; [exact (off_accel _ _ _ _ _ _ _ _ _ _ H1 Ex0)|injection Ex0 as <- _ _; exact H1]).
  destruct (_ && _); [|exact (IH _ _ _ _ _ E H2)]. next E. next E. destruct x0 as [ks km'].
  destruct (wsz =? nf); [destruct (fle o km' tol)|destruct (flt o km' _)]; first [injection E as <- _; exact H2|exact (IH _ _ _ _ _ E H2)].
Qed.
Lemma off_outer nf s me tol K a v it : forall w Xw w', outer_loop o dm df pen srt ds d p_ nf s me tol K a v it w Xw = Ret w' -> off w -> off w'.
Proof using SP Hlip Hprox Hext Hval.
  induction it as [|it IH]; intros w Xw w' E HO; cbn [outer_loop] in E; [injection E as <-; exact HO|].
  next E. destruct x as [kkt km]. destruct (fle o km tol); [injection E as <-; exact HO|]. next E. destruct x as [ws wsz]. next E. destruct x as [w1 X1].
  exact (IH _ _ _ E (off_inner _ _ _ _ _ _ _ _ _ _ _ _ _ _ Ex1 HO)).
Qed.
Lemma off_cd d0 s mi me tol K a v w : df_initialize df d0 ds = Ret d ->
  coordinate_descent o dm df pen srt ds d0 p_ s mi me tol K a v = Ret w -> off w.
Proof using SP Hlip Hprox Hext Hval.
  intros HI E. unfold coordinate_descent in E. next E. rewrite HI in E. cbn [bind] in E. apply (off_outer _ _ _ _ _ _ _ _ _ _ _ E).
  intros y Hy. apply nth_error_In, repeat_spec in Hy. exact Hy.
Qed.
End Core.

Section Inst.
Context {F : Type} (o : FOps F) (SP : nan_spreads o) (srt : list F -> list nat).
Notation isnan x := (fisnan o x = true).
Definition some_nan (l : list F) : Prop := exists x, In x l /\ isnan x.
Lemma l1_prox_nan q v s : isnan v -> pen_prox (l1_penalty o) q v s = f0 o.
Proof using SP. intros H. cbn [pen_prox l1_penalty]. unfold l1_prox, soft_thresholding. rewrite (s_ltr o SP), (s_ltl o SP) by exact H. reflexivity. Qed.
Lemma mapM_at {A B} (f : A -> res B) l : forall bs a, mapM f l = Ret bs -> In a l -> exists b, f a = Ret b /\ In b bs.
Proof using.
  induction l as [|x l IH]; intros bs a E []; cbn [mapM] in E; next E; next E; injection E as <-.
  - subst. exists x0. split; [exact Ex|left; reflexivity].
  - destruct (IH _ _ eq_refl H) as (b & Hb & Hi). exists b. split; [exact Hb|right; exact Hi].
Qed.
Lemma dense_ext_nan X j ws w n Xa : nan_column o X j -> In j ws -> dense_extrap o X ws w n = Ret Xa -> some_nan Xa.
Proof using SP.
  intros (r & x & Hr & Hx & HN) Hj E. unfold dense_extrap in E. destruct (mapM_at _ _ _ _ E Hr) as (b & Hb & Hi). exists b. split; [exact Hi|].
  next Hb. injection Hb as <-. destruct (mapM_at _ _ _ _ Ex Hj) as (c & Hc & Hi'). next Hc. next Hc. injection Hc as <-.
  apply vget_ne in Ex0. rewrite Hx in Ex0. injection Ex0 as <-. apply (sp_sums o SP _ _ Hi'). apply (s_mull o SP). exact HN.
Qed.
Lemma quad_val_nan {DM} d (ds : dataset DM F) Xw v : (forall y, single_target (f0 o) (dtargets ds) = Ret y -> y <> []) -> some_nan Xw -> quad_value o d ds Xw = Ret v -> isnan v.
Proof using SP.
  intros HY (x & Hx & HN) E. unfold quad_value in E. next E. next E. next E. injection E as <-. apply (s_divl o SP). specialize (HY _ eq_refl).
  unfold vdot in Ex1. rewrite Nat.eqb_refl in Ex1. injection Ex1 as <-. unfold vsub, vbin in Ex0. destruct (Nat.eqb_spec (length x0) (length Xw)) as [HL|].
  2:{ assert (exists z, In (fsub o z x) x1) as (z & H2).
      { destruct x0 as [|z [|z' x0]]; [congruence| |].
        - injection Ex0 as <-. exists z. apply (in_map (fsub o z)). exact Hx.
        - destruct Xw as [|u [|]]; try discriminate. injection Ex0 as <-. destruct Hx as [->|[]]. exists z. left. reflexivity. }
      apply (sp_ndot o SP _ _ _ eq_refl (or_introl H2)). apply (s_subr o SP). exact HN. }
  injection Ex0 as <-. destruct (in_map2l (fsub o) x0 Xw x x HL (or_intror Hx)) as [(y & H1 & H2)|(z & _ & H2)].
  - apply (sp_ndot o SP _ _ _ eq_refl (or_introl H2)). apply (s_subl o SP). exact HN.
  - apply (sp_ndot o SP _ _ _ eq_refl (or_introl H2)). apply (s_subr o SP). exact HN.
Qed.
Lemma ms_nan X j l c : nan_column o X j -> nth_error (map (fun Xj => fdiv o (ndot o Xj Xj) c) (cols (f0 o) X)) j = Some l -> isnan l.
Proof using SP.
  intros (r & x & Hr & Hx & HN) E. rewrite nth_error_map in E. unfold cols in E. rewrite nth_error_map in E.
  destruct (nth_error (seq 0 (mnc X)) j) as [k|] eqn:Ek; [|discriminate]. assert (k = j).
  { assert (j < mnc X) by (rewrite <- (seq_length (mnc X) 0); apply nth_error_Some; congruence). rewrite (nth_error_nth' _ 0) in Ek by (rewrite seq_length; lia). rewrite seq_nth in Ek by lia. cbn in Ek. congruence. }
  subst k. cbn in E. injection E as <-. apply (s_divl o SP). apply (sp_ndot o SP _ _ x eq_refl); [left|exact HN].
  unfold colv. apply in_map_iff. exists r. split; [apply nth_error_nth; exact Hx|exact Hr].
Qed.
Lemma off_lasso_dense X t q d0 s mi me tol K a v w j : mwf X -> nan_column o X j ->
  coordinate_descent o (dense_dm o) (quad_dense o) (l1_penalty o) srt (Dataset X t) d0 q s mi me tol K a v = Ret w -> off o j w.
Proof using SP.
  intros HW HC E. assert (E' := E). unfold coordinate_descent in E'. next E'. destruct (df_initialize (quad_dense o) d0 (Dataset X t)) as [d|] eqn:HI; [|discriminate].
  refine (off_cd o SP (dense_dm o) (quad_dense o) (l1_penalty o) srt (Dataset X t) d q j some_nan _ (l1_prox_nan q) _ _ d0 s mi me tol K a v w HI E).
  - intros l Hl. cbn [df_initialize quad_dense] in HI. unfold quad_dense_initialize in HI. next HI. next HI. injection HI as <-. exact (ms_nan _ _ _ _ HC Hl).
  - intros ws w0 n Xa Hj H _. exact (dense_ext_nan X j ws w0 n Xa HC Hj H).
  - intros Xw u. apply quad_val_nan. intros y Ey. cbn [df_initialize quad_dense dtargets] in HI, Ey. unfold quad_dense_initialize in HI. cbn [design_matrix dtargets] in HI. rewrite Ey in HI. cbn [bind] in HI. next HI.
    unfold mtv in Ex0. destruct (Nat.eqb_spec (mnr X) (length y)) as [HL|]; [|discriminate]. destruct HC as (r & z & Hr & _). destruct HW as [HR _]. intros ->. cbn in HL. rewrite HL in HR. destruct (mrows X); [destruct Hr|discriminate].
Qed.

(** *** folds *)
Lemma foldM_hit {S A} (Q : S -> Prop) (f : S -> A -> res S) l : forall s s', foldM f l s = Ret s' -> (forall s a s', f s a = Ret s' -> Q s -> Q s') ->
  Q s \/ (exists a, In a l /\ forall s s', f s a = Ret s' -> Q s') -> Q s'.
Proof using.
  induction l as [|a l IH]; intros s s' E HK HQ; cbn [foldM] in E.
  - injection E as <-. destruct HQ as [H|(a & [] & _)]. exact H.
  - next E. apply (IH _ _ E HK). destruct HQ as [H|(b & [<-|Hb] & H)]; [left; eapply HK; eauto|left; eapply H; eauto|right; eauto].
Qed.
Lemma upd_at {A} (l : list A) i a : i < length l -> nth_error (upd l i a) i = Some a.
Proof using. revert i. induction l as [|x l IH]; intros [|i] H; cbn in *; try lia; [reflexivity|apply IH; lia]. Qed.
Lemma upd_other {A} (l : list A) i k a : k <> i -> nth_error (upd l i a) k = nth_error l k.
Proof using. revert i k. induction l as [|x l IH]; intros [|i] [|k] H; cbn; try reflexivity; try congruence. apply IH. congruence. Qed.
Lemma upd_len {A} (l : list A) i a : length (upd l i a) = length l.
Proof using. revert i. induction l as [|x l IH]; intros [|i]; cbn; auto. Qed.
Lemma vsetz_len {A} (l l' : list A) z a : vsetz l z a = Ret l' -> length l' = length l.
Proof using. unfold vsetz, vset. destruct (_ <? _)%Z; [discriminate|]. destruct (_ <? _); [|discriminate]. intros E. injection E as <-. apply upd_len. Qed.
Lemma vsetz_in {A} (l l' : list A) z a : vsetz l z a = Ret l' -> In a l'.
Proof using.
  unfold vsetz, vset. destruct (_ <? _)%Z; [discriminate|]. destruct (Nat.ltb_spec (Z.to_nat z) (length l)); [|discriminate]. intros E. injection E as <-.
  eapply nth_error_In. apply upd_at. assumption.
Qed.
Lemma vsetz_keep l l' z v a : vgetz l z = Ret v -> vsetz l z a = Ret l' -> (isnan v -> isnan a) -> some_nan l -> some_nan l'.
Proof using.
  intros G E H (x & Hx & HN). apply In_nth_error in Hx as (k & Hk). unfold vgetz in G. unfold vsetz, vset in E. destruct (_ <? _)%Z; [discriminate|].
  apply vget_ne in G. destruct (Nat.ltb_spec (Z.to_nat z) (length l)); [|discriminate]. injection E as <-. destruct (Nat.eq_dec k (Z.to_nat z)) as [->|Hne].
  - exists a. split; [eapply nth_error_In; apply upd_at; assumption|]. apply H. congruence.
  - exists x. split; [|exact HN]. eapply nth_error_In. rewrite upd_other by exact Hne. exact Hk.
Qed.
Lemma range_in X j r lo hi k : nth_error (cindptr X) j = Some lo -> nth_error (cindptr X) (S j) = Some hi -> (lo <= k < hi)%Z -> @csc_range F X j = Ret r -> In k r.
Proof using.
  intros H1 H2 Hk E. unfold csc_range in E. next E. next E. apply vget_ne in Ex, Ex0. injection E as <-. rewrite H1 in Ex. rewrite H2 in Ex0. injection Ex as <-. injection Ex0 as <-.
  unfold zrange. apply in_map_iff. exists (Z.to_nat (k - lo)). split; [lia|]. apply in_seq. lia.
Qed.
Lemma sparse_ext_nan X j ws w n Xa : nan_column_csc o X j -> In j ws -> sparse_extrap o X ws w n = Ret Xa -> some_nan Xa.
Proof using SP.
  intros (lo & hi & k & x & H1 & H2 & H0 & Hk & Hx & HN) Hj E. unfold sparse_extrap in E.
  assert (KP : forall j0 s idx s', (i <- vgetz (cindices X) idx ;; x <- vgetz (cdata X) idx ;; w <- vget w j0 ;; v <- vgetz s i ;; vsetz s i (fadd o v (fmul o x w))) = Ret s' -> some_nan s -> some_nan s').
  { intros j0 s idx s' Es. next Es. next Es. next Es. next Es. apply (vsetz_keep _ _ _ _ _ Ex2 Es). intros Hv. apply (s_addl o SP). exact Hv. }
  apply (foldM_hit some_nan _ _ _ _ E).
  - intros s a s' Es Hs. next Es. apply (foldM_hit some_nan _ _ _ _ Es); [exact (KP a)|left; exact Hs].
  - right. exists j. split; [exact Hj|]. intros s s' Es. next Es. apply (foldM_hit some_nan _ _ _ _ Es); [exact (KP j)|right]. exists k.
    split; [exact (range_in _ _ _ _ _ _ H1 H2 Hk Ex)|]. intros u u' Eu. next Eu. next Eu. next Eu. next Eu. exists (fadd o x4 (fmul o x2 x3)).
    split; [exact (vsetz_in _ _ _ _ Eu)|]. apply (s_addr o SP), (s_mull o SP). unfold vgetz in Ex1. destruct (_ <? _)%Z; [discriminate|]. apply vget_ne in Ex1. congruence.
Qed.
Lemma sparse_ext_len X ws w n Xa : sparse_extrap o X ws w n = Ret Xa -> length Xa = n.
Proof using.
  unfold sparse_extrap. intros E. apply (foldM_inv (fun l => length l = n)) in E; [exact E|apply repeat_length|].
  intros s a s' _ Hs Es. next Es. apply (foldM_inv (fun l => length l = n)) in Es; [exact Es|exact Hs|].
  intros u b u' _ Hu Eu. next Eu. next Eu. next Eu. next Eu. rewrite (vsetz_len _ _ _ _ Eu). exact Hu.
Qed.
Lemma mapM_seq {B} (f : nat -> res B) m : forall a bs j b, mapM f (seq a m) = Ret bs -> nth_error bs j = Some b -> f (a + j) = Ret b.
Proof using.
  induction m as [|m IH]; intros a bs j b E Hj; cbn [seq mapM] in E.
  - injection E as <-. destruct j; discriminate.
  - next E. next E. injection E as <-. destruct j as [|j]; cbn in Hj; [injection Hj as <-; rewrite Nat.add_0_r; exact Ex|].
    rewrite <- Nat.add_succ_comm. exact (IH _ _ _ _ Ex0 Hj).
Qed.
Lemma off_lasso_sparse X t q d0 s mi me tol K a v w j : nan_column_csc o X j ->
  coordinate_descent o (sparse_dm o) (quad_sparse o) (l1_penalty o) srt (Dataset X t) d0 q s mi me tol K a v = Ret w -> off o j w.
Proof using SP.
  intros HC E. assert (E' := E). unfold coordinate_descent in E'. next E'. destruct (df_initialize (quad_sparse o) d0 (Dataset X t)) as [d|] eqn:HI; [|discriminate].
  refine (off_cd o SP (sparse_dm o) (quad_sparse o) (l1_penalty o) srt (Dataset X t) d q j some_nan _ (l1_prox_nan q) _ _ d0 s mi me tol K a v w HI E).
  - intros l Hl. cbn [df_initialize quad_sparse] in HI. unfold quad_sparse_initialize in HI. cbn [design_matrix] in HI. next HI. next HI. next HI. injection HI as <-. cbn [df_step_size quad_sparse q_lipschitz] in Hl.
    rewrite nth_error_map in Hl. destruct (nth_error x2 j) as [[b c]|] eqn:Eb; [|discriminate]. injection Hl as <-. cbn [fst].
    assert (Q := mapM_seq _ _ _ _ _ _ Ex2 Eb). cbn [Nat.add] in Q. next Q. next Q. destruct x4 as [n2 xty]. injection Q as <- _. apply (s_divl o SP).
    destruct HC as (lo & hi & k & y & H1 & H2 & H0 & Hk & Hy & HN).
    apply (foldM_hit (fun st : F * F => isnan (fst st)) _ _ _ _ Ex4).
    + intros u b0 u' Eu Hu. next Eu. next Eu. next Eu. injection Eu as <-. cbn [fst]. apply (s_addl o SP). exact Hu.
    + right. exists k. split; [exact (range_in _ _ _ _ _ _ H1 H2 Hk Ex3)|]. intros u u' Eu. next Eu. next Eu. next Eu. injection Eu as <-. cbn [fst].
      apply (s_addr o SP), (s_mull o SP). unfold vgetz in Ex5. destruct (_ <? _)%Z; [discriminate|]. apply vget_ne in Ex5. congruence.
  - intros ws w0 n Xa Hj H _. exact (sparse_ext_nan X j ws w0 n Xa HC Hj H).
  - intros Xw u. apply quad_val_nan. intros y0 Ey ->. cbn [df_initialize quad_sparse dtargets] in HI, Ey. unfold quad_sparse_initialize in HI. cbn [design_matrix dtargets] in HI. rewrite Ey in HI. cbn [bind] in HI. next HI. next HI.
    destruct HC as (lo & hi & k & y & H1 & H2 & H0 & Hk & Hy & HN).
    assert (Hj : In j (seq 0 x0)). { unfold csc_n_features in Ex0. destruct (cindptr X) as [|c cs]; [discriminate|]. injection Ex0 as <-. apply in_seq. assert (S j < length (c :: cs)) by (apply nth_error_Some; congruence). cbn in *. lia. }
    destruct (mapM_at _ _ _ _ Ex1 Hj) as (b & Hb & _). next Hb. next Hb. assert (Hin := range_in _ _ _ _ _ _ H1 H2 Hk Ex2).
    apply (foldM_hit (fun _ : F * F => False) _ _ _ _ Ex3); [auto|]. right. exists k. split; [exact Hin|]. intros u0 u' Eu. next Eu. next Eu. next Eu. match goal with H : vgetz [] ?i = Ret _ |- _ => unfold vgetz in H; destruct (_ <? _)%Z; [discriminate|]; apply vget_ne in H; destruct (Z.to_nat i); discriminate end.
Qed.

(** *** logistic regression *)
Context (EL : exp_log_nan o).
Lemma log_val_nan {DM} d (ds : dataset DM F) n Xw v : target1_wf n (dtargets ds) -> some_nan Xw /\ length Xw = n -> log_value o d ds Xw = Ret v -> isnan v.
Proof using SP EL.
  intros Ht ((x & Hx & HN) & HL) E. unfold log_value in E. next E. injection E as <-. apply (s_divl o SP).
  destruct (single_ok o n _ Ht) as (y & Ey & Ly). rewrite Ex in Ey. injection Ey as ->.
  apply In_nth_error in Hx as (k & Hk). destruct (nth_error y k) as [u|] eqn:Eu; [|apply nth_error_None in Eu; assert (k < length Xw) by (apply nth_error_Some; congruence); lia].
  refine (proj1 (sp_sums o SP _ _ (in_map2 _ y Xw k x u Hk Eu) _)). apply EL, (s_addr o SP), EL, (s_mull o SP), EL. exact HN.
Qed.
Lemma off_log_dense X n p t q d0 s mi me tol K a v w j : shaped n p X -> target1_wf n t -> nan_column o X j ->
  coordinate_descent o (dense_dm o) (log_dense o) (l1_penalty o) srt (Dataset X t) d0 q s mi me tol K a v = Ret w -> off o j w.
Proof using SP EL.
  intros HX Ht HC E. assert (E' := E). unfold coordinate_descent in E'. next E'. destruct (df_initialize (log_dense o) d0 (Dataset X t)) as [d|] eqn:HI; [|discriminate].
  refine (off_cd o SP (dense_dm o) (log_dense o) (l1_penalty o) srt (Dataset X t) d q j (fun l => some_nan l /\ length l = n) _ (l1_prox_nan q) _ _ d0 s mi me tol K a v w HI E).
  - intros l Hl. cbn [df_initialize log_dense] in HI. unfold log_dense_initialize in HI. injection HI as <-. exact (ms_nan _ _ _ _ HC Hl).
  - intros ws w0 n' Xa Hj H _. split; [exact (dense_ext_nan X j ws w0 n' Xa HC Hj H)|]. cbn [dm_extrap dense_dm design_matrix] in H. unfold dense_extrap in H.
    rewrite (mapM_len _ _ _ H). destruct HX as (H1 & _ & H3 & _). congruence.
  - intros Xw u. apply (log_val_nan d (Dataset X t) n Xw u Ht).
Qed.
Lemma off_log_sparse X n t q d0 s mi me tol K a v w j : target1_wf n t -> nan_column_csc o X j ->
  coordinate_descent o (sparse_dm o) (log_sparse o) (l1_penalty o) srt (Dataset X t) d0 q s mi me tol K a v = Ret w -> off o j w.
Proof using SP EL.
  intros Ht HC E. assert (E' := E). unfold coordinate_descent in E'. next E'. destruct (df_initialize (log_sparse o) d0 (Dataset X t)) as [d|] eqn:HI; [|discriminate].
  refine (off_cd o SP (sparse_dm o) (log_sparse o) (l1_penalty o) srt (Dataset X t) d q j (fun l => some_nan l /\ length l = n) _ (l1_prox_nan q) _ _ d0 s mi me tol K a v w HI E).
  - intros l Hl. cbn [df_initialize log_sparse] in HI. unfold log_sparse_initialize in HI. cbn [design_matrix] in HI. next HI. next HI. injection HI as <-. cbn [df_step_size log_sparse l_lipschitz] in Hl.
    assert (Q := mapM_seq _ _ _ _ _ _ Ex1 Hl). cbn [Nat.add] in Q. next Q. next Q. injection Q as <-. apply (s_divl o SP).
    destruct HC as (lo & hi & k & y & H1 & H2 & H0 & Hk & Hy & HN). apply (foldM_hit (fun st : F => isnan st) _ _ _ _ Ex3).
    + intros u b0 u' Eu Hu. next Eu. injection Eu as <-. apply (s_addl o SP). exact Hu.
    + right. exists k. split; [exact (range_in _ _ _ _ _ _ H1 H2 Hk Ex2)|]. intros u u' Eu. next Eu. injection Eu as <-.
      apply (s_addr o SP), (s_mull o SP). unfold vgetz in Ex4. destruct (_ <? _)%Z; [discriminate|]. apply vget_ne in Ex4. congruence.
  - intros ws w0 n' Xa Hj H Hn. split; [exact (sparse_ext_nan X j ws w0 n' Xa HC Hj H)|]. cbn [dm_extrap sparse_dm design_matrix] in H.
    rewrite (sparse_ext_len _ _ _ _ _ H), Hn. apply target1_ns. exact Ht.
  - intros Xw u. apply (log_val_nan d (Dataset X t) n Xw u Ht).
Qed.
End Inst.

(** *** estimators *)
Lemma off_lasso_fits {F} (o : FOps F) (SP : nan_spreads o) srt pr j t w x : nth_error w j = Some x ->
  (forall X, mwf X -> nan_column o X j -> fit_unchecked (lasso_check_ref o) (lasso_fit_dense o srt) pr (Dataset X t) = Ret (Ok w) -> x = f0 o) /\
  (forall X, nan_column_csc o X j -> fit_unchecked (lasso_check_ref o) (lasso_fit_sparse o srt) pr (Dataset X t) = Ret (Ok w) -> x = f0 o).
Proof.
  intros Hx. destruct (chk_same o pr) as (C1 & _). split.
  - intros X HW HC E; apply (fit_inv pr _ _ _ _ C1) in E. exact (off_lasso_dense o SP srt X t _ _ _ _ _ _ _ _ _ w j HW HC E x Hx).
  - intros X HC E; apply (fit_inv pr _ _ _ _ C1) in E. exact (off_lasso_sparse o SP srt X t _ _ _ _ _ _ _ _ _ w j HC E x Hx).
Qed.
Lemma off_log_fits {F} (o : FOps F) (SP : nan_spreads o) (EL : exp_log_nan o) srt n p (s : solver F) d q j t w x : target1_wf n t -> nth_error w j = Some x ->
  (forall X, shaped n p X -> nan_column o X j -> solve o srt (dense_dm o) (log_dense o) (l1_penalty o) s (Dataset X t) d q = Ret w -> x = f0 o) /\
  (forall X, nan_column_csc o X j -> solve o srt (sparse_dm o) (log_sparse o) (l1_penalty o) s (Dataset X t) d q = Ret w -> x = f0 o).
Proof.
  intros Ht Hx. split.
  - intros X HX HC E. unfold solve in E. exact (off_log_dense o SP srt EL X n p t _ _ _ _ _ _ _ _ _ w j HX Ht HC E x Hx).
  - intros X HC E. unfold solve in E. exact (off_log_sparse o SP srt EL X n t _ _ _ _ _ _ _ _ _ w j Ht HC E x Hx).
Qed.
Lemma xr_exp_log : exp_log_nan xops.
Proof. intros x H. apply xnan in H. subst x. cbn. auto. Qed.
Lemma ieee_exp_log prec emax Hp Hm m : (forall x, BinarySingleNaN.is_nan x = true -> BinarySingleNaN.is_nan (lm_exp prec emax m x) = true /\ BinarySingleNaN.is_nan (lm_ln prec emax m x) = true) ->
  exp_log_nan (ieee_ops prec emax Hp Hm m).
Proof.
  intros H x Hx. cbn in *. destruct (H x Hx) as [H1 H2]. split; [destruct x; try discriminate; reflexivity|]. split; [exact H1|]. intros b.
  destruct (lm_ln prec emax m x); try discriminate. destruct (lm_ln prec emax m b); reflexivity.
Qed.

(** *** doubles: the same data stored by columns *)
Definition nC : csc f64 := Csc [f64_of 1; f64_of 3; nan64; f64_of 1; f64_of (-1)] [0; 2; 0; 1; 2]%Z [0; 2; 5]%Z.
Definition nsol : solver f64 := Solver 2 2 10 (flit ops64 1 1000000) 2 true false.
Lemma ex_csc : nan_column_csc ops64 nC 1 /\ exp_log_nan ops64 /\ target1_wf 3 ry.
Proof.
  split; [|split].
  - exists 2%Z, 5%Z, 2%Z, nan64. repeat split; try reflexivity; try lia.
  - apply ieee_exp_log. intros x Hx. split; exact Hx.
  - reflexivity.
Qed.
Lemma ex_off_sparse : match fit_unchecked (lasso_check_ref ops64) (lasso_fit_sparse ops64 srt64) npr (Dataset nC ry) with
  | Ret (Ok [a; b]) => negb (feq ops64 a (f0 ops64)) && feq ops64 b (f0 ops64) | _ => false end &&
  match solve ops64 srt64 (dense_dm ops64) (log_dense ops64) (l1_penalty ops64) nsol (Dataset nX ry) (logistic_new ops64) (L1 (flit ops64 1 100)) with
  | Ret [a; b] => negb (feq ops64 a (f0 ops64)) && feq ops64 b (f0 ops64) | _ => false end = true.
Proof. vm_compute. reflexivity. Qed.
