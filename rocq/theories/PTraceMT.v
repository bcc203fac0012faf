(** Lemmas behind the property theorem on the course of a multi-task run. *)
From Coq Require Import List ZArith Bool Arith Lia Permutation.
From Verif Require Import Ops Arr MUtils MDatasets MDatafitsMT MBlockPenalties MCd MBcd MHyper MEstimators PBase SpecSolve SpecTraceMT PStruct PShape PNoPanic.
Import ListNotations.
Local Open Scope nat_scope.

Lemma mset_row_inv {A} r c (m m' : mat A) i v : shaped r c m -> mset_row m i v = Ret m' -> shaped r c m' /\ mrows m' = upd (mrows m) i v.
Proof.
  intros (H1 & H2 & H3 & H4) E. unfold mset_row in E. destruct (vget (mrows m) i) as [x|] eqn:Ev; [|discriminate]. cbn [bind] in E.
  destruct (length v =? length x) eqn:EL; [|discriminate]. apply Nat.eqb_eq in EL. destruct (vget_inv _ _ _ Ev) as [Hi Hx]. rewrite (vset_ok _ _ _ Hi) in E. cbn [bind] in E. injection E as <-.
  split; [|reflexivity]. split; [exact H1|]. split; [exact H2|]. split; cbn [mrows mnr mnc]; [rewrite upd_length; exact H3|].
  rewrite Forall_forall in H4 |- *. intros y Hy. destruct (In_nth _ _ x Hy) as (k & Hk & <-). rewrite upd_length in Hk. rewrite nth_upd.
  assert (Lx : length x = mnc m) by (apply H4; rewrite <- (Hx x); apply nth_In; exact Hi).
  destruct ((k =? i) && _); [congruence|]. apply H4, nth_In, Hk.
Qed.
Lemma mset_inv {A} r c (m m' : mat A) i j v : shaped r c m -> mset m i j v = Ret m' -> shaped r c m'.
Proof.
  intros (H1 & H2 & H3 & H4) E. unfold mset in E. destruct (vget (mrows m) i) as [x|] eqn:Ev; [|discriminate]. cbn [bind] in E.
  destruct (vset x j v) as [x'|] eqn:Ex; [|discriminate]. cbn [bind] in E. destruct (vget_inv _ _ _ Ev) as [Hi Hx]. rewrite (vset_ok _ _ _ Hi) in E. cbn [bind] in E. injection E as <-.
  assert (Lx : length x = mnc m) by (rewrite Forall_forall in H4; apply H4; rewrite <- (Hx x); apply nth_In; exact Hi).
  assert (Lx' : length x' = mnc m) by (unfold vset in Ex; destruct (_ <? _); [|discriminate]; injection Ex as <-; rewrite upd_length; exact Lx).
  split; [exact H1|]. split; [exact H2|]. split; cbn [mrows mnr mnc]; [rewrite upd_length; exact H3|].
  rewrite Forall_forall in H4 |- *. intros y Hy. destruct (In_nth _ _ x Hy) as (k & Hk & <-). rewrite upd_length in Hk. rewrite nth_upd.
  destruct ((k =? i) && _); [exact Lx'|]. apply H4, nth_In, Hk.
Qed.

Section T.
Context {F DM D P : Type} (o : FOps F) (dm : DesignMatrix F DM) (df : DatafitMT F DM D) (pen : PenaltyMT F P).
Context (srt : list F -> list nat) (VS : valid_sort o srt).
Context (ds : dataset DM F) (d : D) (q : P) (p : nat) (OS : one_score_each_mt pen q).
Local Notation n := (n_samples (dtargets ds)).
Local Notation T := (n_tasks (dtargets ds)).
Local Notation step := (bcd_step o dm df pen ds d q).
Local Notation leg := (leg_mt o dm df pen ds d q p n T).
Local Notation recomputed := (recomputed_mt o dm ds p n T).

Lemma step_wsh W XW j W' XW' : shaped p T W -> step (W, XW) j = Ret (W', XW') -> shaped p T W'.
Proof.
  intros S E. unfold bcd_step in E. cbv zeta in E. destruct (vget (dfm_step_size df d) j); [|discriminate]. cbn [bind] in E. destruct (feq o _ _); [injection E as <- _; exact S|].
  destruct (mrow W j) as [old|]; [|discriminate]. cbn [bind] in E. destruct (dfm_gradient_j _ _ _ _ _); [|discriminate]. cbn [bind] in E. destruct (vsub _ _ _); [|discriminate]. cbn [bind] in E.
  destruct (foldM _ _ W) as [W2|] eqn:Ew; [|discriminate]. cbn [bind] in E. destruct (mapM _ _) as [df'|]; [|discriminate]. cbn [bind] in E.
  assert (W' = W2). { destruct (any_nonzero _ _); [destruct (dm_update_mt _ _ _ _ _); [|discriminate]; cbn [bind] in E|]; injection E as <- _; reflexivity. } subst W2.
  refine (foldM_inv (shaped p T) _ _ _ _ S _ Ew). intros V t V' _ SV K. destruct (vget _ t); [|discriminate]. cbn [bind] in K. exact (mset_inv _ _ _ _ _ _ _ SV K).
Qed.
Lemma steps_wsh js : forall s s', shaped p T (fst s) -> foldM step js s = Ret s' -> shaped p T (fst s').
Proof.
  induction js as [|j js IH]; intros s s' S E; cbn [foldM] in E; [injection E as <-; exact S|].
  destruct (step s j) as [s1|] eqn:E1; [|discriminate]. cbn [bind] in E. apply (IH s1 s'); [|exact E]. destruct s as [w Xw], s1 as [w1 X1]. exact (step_wsh w Xw j w1 X1 S E1).
Qed.
Lemma scatter_mt_inv pt ws W : scatter_mt o p T pt ws = Ret W -> shaped p T W /\ (forall j, j < p -> ~ In j ws -> nth_error (mrows W) j = Some (repeat (f0 o) T)).
Proof.
  unfold scatter_mt. destruct (reshape _ _ pt) as [m|]; [|discriminate]. cbn [bind]. intros E.
  refine (foldM_inv (fun V => shaped p T V /\ forall j, j < p -> ~ In j ws -> nth_error (mrows V) j = Some (repeat (f0 o) T)) _ _ _ _ _ _ E).
  - split; [apply mzeros_shaped|]. intros j Hj _. unfold mzeros, mfill. cbn [mrows]. rewrite (nth_error_nth' _ []) by (rewrite repeat_length; exact Hj). f_equal. apply (repeat_spec p). apply nth_In. rewrite repeat_length. exact Hj.
  - intros V [r k] V1 Hin [S Z] E1. cbn [fst snd] in E1. apply in_combine_r in Hin. destruct (mset_row_inv _ _ _ _ _ _ S E1) as [S1 R1]. split; [exact S1|].
    intros j Hj Hn. rewrite R1, <- (Z j Hj Hn). assert (LV : length (mrows V) = p) by (destruct S as (A & _ & B & _); congruence).
    rewrite !(nth_error_nth' _ []) by (rewrite ?upd_length; lia). f_equal. rewrite nth_upd. destruct (j =? k) eqn:Ek; [|reflexivity]. apply Nat.eqb_eq in Ek. subst. contradiction.
Qed.
Lemma accel_trace_mt (NF : dm_n_features dm (design_matrix ds) = Ret p) m w Xw ws e K v w' X' m' : NoDup ws -> length ws <= p -> anderson_accel_mt o dm df pen ds w Xw d q ws m e K v = Ret (w', X', m') ->
  (w', X') = (w, Xw) \/ recomputed (w', X').
Proof.
  intros ND LWS E. unfold anderson_accel_mt in E. cbv zeta in E. rewrite NF in E. cbn [bind] in E. destruct (store_iterate_mt _ _ _ _) as [m1|]; [|discriminate]. cbn [bind] in E.
  destruct (_ =? _); [|injection E as <- <- _; left; reflexivity]. destruct (anderson_point _ _ _ _) as [[pt|]|]; [| |discriminate]; cbn [bind] in E; [|injection E as <- <- _; left; reflexivity].
  destruct (scatter_mt _ _ _ _ _) as [wa|] eqn:Es; [|discriminate]. cbn [bind] in E. destruct (dm_extrap_mt _ _ _ _ _ _) as [Xa|] eqn:Ex; [|discriminate]. cbn [bind] in E.
  destruct (dfm_value df d ds Xw) as [va|]; [|discriminate]. cbn [bind] in E. destruct (dfm_value df d ds Xa) as [vb|]; [|discriminate]. cbn [bind] in E.
  destruct (flt o _ _); injection E as <- <- _; [|left; reflexivity]. right. destruct (scatter_mt_inv _ _ _ Es) as [S Z]. exists ws. cbn [fst snd]. split; [exact ND|]. split; [exact LWS|]. split; [exact S|]. split; [exact Z|exact Ex].
Qed.
Lemma leg_refl_mt N s : leg N s s.
Proof. exists s, []. split; [left; reflexivity|]. split; [apply Nat.le_0_l|reflexivity]. Qed.
Lemma leg_more_mt N M s s' : leg N s s' -> N <= M -> leg M s s'.
Proof. intros (s0 & js & A & B & C) H. exists s0, js. split; [exact A|]. split; [lia|exact C]. Qed.
Lemma leg_cons_mt N ws s s1 s2 s' : foldM step ws s = Ret s1 -> s2 = s1 \/ recomputed s2 -> leg N s2 s' -> leg (length ws + N) s s'.
Proof.
  intros E R (s0 & js & [->|A] & B & C).
  - destruct R as [->|R].
    + exists s, (ws ++ js). split; [left; reflexivity|]. split; [rewrite app_length; lia|]. rewrite foldM_app, E. exact C.
    + exists s2, js. split; [right; exact R|]. split; [lia|exact C].
  - exists s0, js. split; [right; exact A|]. split; [lia|exact C].
Qed.
Lemma leg_sh N s s' : shaped p T (fst s) -> leg N s s' -> shaped p T (fst s').
Proof.
  intros L (s0 & js & A & _ & C). apply (steps_wsh js s0 s'); [|exact C]. destruct A as [->|(ws & _ & _ & A & _)]; [exact L|exact A].
Qed.
Lemma inner_trace_mt (NF : dm_n_features dm (design_matrix ds) = Ret p) nf tol km K acc vb ws sz : NoDup ws -> length ws <= p -> forall eps w Xw m s',
  inner_loop_mt o dm df pen ds d q nf tol km K acc vb ws sz eps w Xw m = Ret s' -> leg (length eps * length ws) (w, Xw) s'.
Proof.
  intros ND LWS. induction eps as [|e eps IH]; intros w Xw m s' E; cbn [inner_loop_mt] in E; [injection E as <-; apply leg_refl_mt|].
  destruct (foldM step ws (w, Xw)) as [[w1 X1]|] eqn:E1; [|discriminate]. cbn [bind] in E.
  destruct (if acc then _ else _) as [[[w2 X2] m2]|] eqn:E2; [|discriminate]. cbn [bind] in E. cbv zeta in E.
  assert (R : (w2, X2) = (w1, X1) \/ recomputed (w2, X2)). { destruct acc; [exact (accel_trace_mt NF _ _ _ _ _ _ _ _ _ _ ND LWS E2)|injection E2 as <- <- _; left; reflexivity]. }
  cbn [length Nat.mul]. apply (leg_cons_mt _ ws (w, Xw) (w1, X1) (w2, X2) s' E1 R).
  destruct (_ && _); [|exact (IH _ _ _ _ E)]. destruct (dfm_value _ _ _ _); [|discriminate]. cbn [bind] in E. destruct (opt_cond_violation_mt _ _ _ _ _ _ _ _) as [[kk mx]|]; [|discriminate]. cbn [bind] in E.
  destruct (sz =? nf); [destruct (fle o _ _)|destruct (flt o _ _)]; try (injection E as <-; apply leg_refl_mt); exact (IH _ _ _ _ E).
Qed.
Lemma chop_length {A} c : forall r (l : list A), length (chop c r l) = r.
Proof. induction r as [|r IH]; intros l; cbn [chop length]; [reflexivity|rewrite IH; reflexivity]. Qed.
Lemma ocv_len_mt w Xw ws sc m : opt_cond_violation_mt df pen ds w Xw ws d q = Ret (sc, m) -> length sc = length ws.
Proof using OS.
  unfold opt_cond_violation_mt. destruct (construct_grad_mt _ _ _ _ _) as [g|] eqn:E; [|discriminate]. cbn [bind]. intros H. apply (OS w g ws sc m); [|exact H].
  unfold construct_grad_mt in E. destruct (mapM _ ws) as [rs|]; [|discriminate]. cbn [bind] in E. unfold reshape in E. destruct (_ =? _); [|discriminate]. injection E as <-. cbn [mrows]. apply chop_length.
Qed.
Lemma ws_nodup_mt kkt w ws0 ws sz : shaped p T w -> length kkt = p -> ws0 <= p -> construct_ws_from_kkt_mt o srt kkt w ws0 = Ret (ws, sz) -> NoDup ws /\ length ws <= p.
Proof using VS.
  intros S L H0 E. rewrite (construct_ws_mt_select o srt w kkt ws0 p T S L) in E. unfold select in E. cbv zeta in E. set (sz' := Nat.max ws0 _) in *.
  assert (Hsz : sz' <= p) by (unfold sz'; lia). unfold argsort_desc in E. set (m := marked o (nzm o w) p kkt) in *. assert (Lm : length m = p) by apply tab_length.
  destruct ((2 <=? length m) && existsb (fisnan o) m) eqn:EN; [discriminate|]. cbn [bind] in E. destruct (length (firstn sz' (srt m)) =? sz') eqn:EL; [|discriminate]. injection E as <- _. apply Nat.eqb_eq in EL. split; [|lia].
  apply andb_false_iff in EN as [EN|EN].
  - apply Nat.leb_gt in EN. assert (L1 : length (firstn sz' (srt m)) <= 1) by lia. destruct (firstn sz' (srt m)) as [|a [|b l]]; [constructor|constructor; [intros []|constructor]|cbn [length] in L1; lia].
  - destruct (VS m EN) as [PM _]. apply NoDup_firstn. apply (Permutation_NoDup (Permutation_sym PM)), seq_NoDup.
Qed.
Lemma outer_trace_mt (NF : dm_n_features dm (design_matrix ds) = Ret p) ws0 me tol K acc vb : ws0 <= p -> forall it w Xw w', shaped p T w ->
  outer_loop_mt o dm df pen srt ds d q p ws0 me tol K acc vb it w Xw = Ret w' ->
  exists k Xw', k <= it /\ rounds_mt o dm df pen ds d q p n T tol (me * p) k (w, Xw) (w', Xw') /\ (k = it \/ tested_mt o df pen ds d q p tol true (w', Xw')).
Proof using VS OS.
  intros H0. induction it as [|it IH]; intros w Xw w' L E; cbn [outer_loop_mt] in E.
  - injection E as <-. exists 0, Xw. split; [lia|]. split; [constructor|left; reflexivity].
  - destruct (opt_cond_violation_mt df pen ds w Xw (seq 0 p) d q) as [[kk mx]|] eqn:EO; [|discriminate]. cbn [bind] in E. destruct (fle o mx tol) eqn:ET.
    + injection E as <-. exists 0, Xw. split; [lia|]. split; [constructor|right; exists kk, mx; split; [exact EO|exact ET]].
    + destruct (construct_ws_from_kkt_mt o srt kk w ws0) as [[ws sz]|] eqn:EW; [|discriminate]. cbn [bind] in E.
      assert (LK : length kk = p) by (rewrite (ocv_len_mt _ _ _ _ _ EO), seq_length; auto).
      destruct (ws_nodup_mt kk w ws0 ws sz L LK H0 EW) as [ND LW].
      destruct (inner_loop_mt _ _ _ _ _ _ _ _ _ _ _ _ _ _ _ _ _ _ _) as [[w1 X1]|] eqn:EI; [|discriminate]. cbn [bind] in E.
      pose proof (inner_trace_mt NF _ _ _ _ _ _ _ _ ND LW _ _ _ _ _ EI) as LG. rewrite seq_length in LG. assert (LG' : leg (me * p) (w, Xw) (w1, X1)) by (apply (leg_more_mt _ _ _ _ LG), Nat.mul_le_mono_l; lia).
      destruct (IH w1 X1 w' (leg_sh _ (w, Xw) (w1, X1) L LG') E) as (k & X' & A & B & C). exists (S k), X'. split; [lia|]. split; [|destruct C as [->|C]; auto].
      apply (rounds_mt_more _ _ _ _ _ _ _ _ _ _ _ _ k (w, Xw) (w1, X1)); [exists kk, mx; split; [exact EO|exact ET]|exact LG'|exact B].
Qed.
End T.

Lemma c81_mt {F DM D P} (o : FOps F) (dm : DesignMatrix F DM) (df : DatafitMT F DM D) (pen : PenaltyMT F P) srt ds d q s W p :
  valid_sort o srt -> one_score_each_mt pen q -> dm_n_features dm (design_matrix ds) = Ret p -> solve_multi_task o srt dm df pen s ds d q = Ret W ->
  let n := n_samples (dtargets ds) in let T := n_tasks (dtargets ds) in
  exists d' k XW, dfm_initialize df d ds = Ret d' /\ k <= s_max_iterations s /\
    rounds_mt o dm df pen ds d' q p n T (s_tolerance s) (s_max_epochs s * p) k (zero_state_mt o p n T) (W, XW) /\
    (k = s_max_iterations s \/ tested_mt o df pen ds d' q p (s_tolerance s) true (W, XW)).
Proof.
  intros VS OS NF E n T. unfold solve_multi_task, block_coordinate_descent in E. cbv zeta in E. rewrite NF in E. cbn [bind] in E. destruct (dfm_initialize df d ds) as [d'|]; [|discriminate]. cbn [bind] in E.
  set (ws0 := if p <? _ then _ else _) in E. assert (H0 : ws0 <= p) by (unfold ws0; destruct (p <? _) eqn:H; [apply le_n|apply Nat.ltb_ge in H; exact H]).
  destruct (outer_trace_mt o dm df pen srt VS ds d' q p OS NF _ _ _ _ _ _ H0 _ _ _ _ (mzeros_shaped o _ _) E) as (k & X & A & B & C).
  exists d', k, X. split; [reflexivity|]. split; [exact A|]. split; [exact B|exact C].
Qed.
Lemma bscores_len {F} (o : FOps F) f (W g : mat F) ws sc mx : length (mrows g) = length ws -> bscores o f W g ws = Ret (sc, mx) -> length sc = length ws.
Proof.
  intros L H. unfold bscores in H. destruct (mapM _ _) as [l|] eqn:E; [|discriminate]. cbn [bind] in H. injection H as <- _. apply mapM_inv in E.
  assert (Q : length l = length (combine (mrows g) ws)) by (clear -E; induction E; cbn [length]; congruence). rewrite Q, combine_length. lia.
Qed.
Lemma one_l21 {F} (o : FOps F) q : one_score_each_mt (l21_penalty o) q.
Proof. intros w g ws sc mx L H. exact (bscores_len o _ w g ws sc mx L H). Qed.
Lemma one_bl1l2 {F} (o : FOps F) q : one_score_each_mt (bl1l2_penalty o) q.
Proof. intros w g ws sc mx L H. exact (bscores_len o _ w g ws sc mx L H). Qed.
Lemma one_bmcp {F} (o : FOps F) q : one_score_each_mt (bmcp_penalty o) q.
Proof. intros w g ws sc mx L H. exact (bscores_len o _ w g ws sc mx L H). Qed.
