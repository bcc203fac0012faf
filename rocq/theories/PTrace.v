(** Lemmas behind the property theorem on the course of a run. *)
From Coq Require Import List ZArith Bool Arith Lia Permutation.
From Verif Require Import Ops Arr MUtils MDatasets MDatafits MPenalties MCd MHyper MEstimators PBase SpecSolve SpecTrace PStruct PShape PNoPanic.
Import ListNotations.
Local Open Scope nat_scope.

Section T.
Context {F DM D P : Type} (o : FOps F) (dm : DesignMatrix F DM) (df : Datafit F DM D) (pen : Penalty F P).
Context (srt : list F -> list nat) (VS : valid_sort o srt).
Context (ds : dataset DM F) (d : D) (q : P) (p : nat) (OS : one_score_each pen q).
Local Notation n := (n_samples (dtargets ds)).
Local Notation step := (cd_step o dm df pen ds d q).
Local Notation leg := (leg o dm df pen ds d q p n).
Local Notation recomputed := (recomputed o dm ds p n).

Lemma step_wlen w Xw j w' Xw' : step (w, Xw) j = Ret (w', Xw') -> length w' = length w.
Proof.
  intros E. unfold cd_step in E. destruct (vget (df_step_size df d) j); [|discriminate]. cbn [bind] in E. destruct (feq o _ _); [injection E as <- _; reflexivity|].
  destruct (vget w j); [|discriminate]. cbn [bind] in E. destruct (df_gradient_j _ _ _ _ _); [|discriminate]. cbn [bind] in E. destruct (vset w j _) as [w2|] eqn:Ew; [|discriminate]. cbn [bind] in E.
  assert (w' = w2). { destruct (negb _); [destruct (dm_update _ _ _ _ _); [|discriminate]; cbn [bind] in E|]; injection E as <- _; reflexivity. } subst w2.
  unfold vset in Ew. destruct (j <? length w); [|discriminate]. injection Ew as <-. apply upd_length.
Qed.
Lemma steps_wlen js : forall s s', foldM step js s = Ret s' -> length (fst s') = length (fst s).
Proof.
  induction js as [|j js IH]; intros s s' E; cbn [foldM] in E; [injection E as <-; reflexivity|].
  destruct (step s j) as [s1|] eqn:E1; [|discriminate]. cbn [bind] in E. rewrite (IH s1 s' E). destruct s as [w Xw], s1 as [w1 X1]. exact (step_wlen w Xw j w1 X1 E1).
Qed.
Lemma scatter_off pt j : forall ws w, scatter o p pt ws = Ret w -> ~ In j ws -> nth j w (f0 o) = f0 o.
Proof.
  unfold scatter. intros ws w E Hj. assert (H0 : nth j (vzeros o p) (f0 o) = f0 o).
  { unfold vzeros. destruct (nth_in_or_default j (repeat (f0 o) p) (f0 o)) as [H|H]; [exact (repeat_spec _ _ _ H)|exact H]. }
  revert E. generalize (vzeros o p) H0. revert ws Hj. induction pt as [|a pt IH]; intros [|k ws] Hj w0 HO E; cbn [combine foldM] in E; try (injection E as <-; exact HO).
  destruct (vset w0 _ _) as [w1|] eqn:Ew; [|discriminate]. cbn [bind fst snd] in E, Ew. apply (IH ws (fun H => Hj (or_intror H)) w1); [|exact E].
  unfold vset in Ew. destruct (k <? length w0); [|discriminate]. injection Ew as <-. rewrite nth_upd. destruct (j =? k) eqn:Ek; [apply Nat.eqb_eq in Ek; subst; exfalso; apply Hj; left; reflexivity|exact HO].
Qed.
Lemma scatter_len pt ws w : scatter o p pt ws = Ret w -> length w = p.
Proof.
  unfold scatter. intros H. refine (foldM_inv (fun v => length v = p) _ _ _ _ _ _ H).
  - unfold vzeros. apply repeat_length.
  - intros v b v' _ E K. unfold vset in K. destruct (_ <? _); [|discriminate]. injection K as <-. rewrite upd_length. exact E.
Qed.
Lemma accel_trace (NF : dm_n_features dm (design_matrix ds) = Ret p) m w Xw ws e K v w' X' m' : NoDup ws -> length ws <= p -> anderson_accel o dm df pen ds d q m w Xw ws e K v = Ret (w', X', m') ->
  (w', X') = (w, Xw) \/ recomputed (w', X').
Proof.
  intros ND LWS E. unfold anderson_accel in E. cbv zeta in E. rewrite NF in E. cbn [bind] in E. destruct (store_iterate _ _ _ _) as [m1|]; [|discriminate]. cbn [bind] in E.
  destruct (_ =? _); [|injection E as <- <- _; left; reflexivity]. destruct (anderson_point _ _ _ _) as [[pt|]|]; [| |discriminate]; cbn [bind] in E; [|injection E as <- <- _; left; reflexivity].
  destruct (scatter _ _ _ _) as [wa|] eqn:Es; [|discriminate]. cbn [bind] in E. destruct (dm_extrap _ _ _ _ _) as [Xa|] eqn:Ex; [|discriminate]. cbn [bind] in E.
  destruct (df_value df d ds Xw) as [va|]; [|discriminate]. cbn [bind] in E. destruct (df_value df d ds Xa) as [vb|]; [|discriminate]. cbn [bind] in E.
  destruct (flt o _ _); injection E as <- <- _; [|left; reflexivity]. right. exists ws. cbn [fst snd]. split; [exact ND|]. split; [exact LWS|]. split; [exact (scatter_len _ _ _ Es)|]. split; [|exact Ex].
  intros j Hj. exact (scatter_off pt j ws wa Es Hj).
Qed.
Lemma leg_refl N s : leg N s s.
Proof. exists s, []. split; [left; reflexivity|]. split; [apply Nat.le_0_l|reflexivity]. Qed.
Lemma leg_more N M s s' : leg N s s' -> N <= M -> leg M s s'.
Proof. intros (s0 & js & A & B & C) H. exists s0, js. split; [exact A|]. split; [lia|exact C]. Qed.
Lemma leg_cons N ws s s1 s2 s' : foldM step ws s = Ret s1 -> s2 = s1 \/ recomputed s2 -> leg N s2 s' -> leg (length ws + N) s s'.
Proof.
  intros E R (s0 & js & [->|A] & B & C).
  - destruct R as [->|R].
    + exists s, (ws ++ js). split; [left; reflexivity|]. split; [rewrite app_length; lia|]. rewrite foldM_app, E. exact C.
    + exists s2, js. split; [right; exact R|]. split; [lia|exact C].
  - exists s0, js. split; [right; exact A|]. split; [lia|exact C].
Qed.
Lemma leg_len N s s' : length (fst s) = p -> leg N s s' -> length (fst s') = p.
Proof.
  intros L (s0 & js & A & _ & C). rewrite (steps_wlen js s0 s' C). destruct A as [->|(ws & _ & _ & A & _)]; [exact L|exact A].
Qed.
Lemma inner_trace (NF : dm_n_features dm (design_matrix ds) = Ret p) nf tol km K acc vb ws sz : NoDup ws -> length ws <= p -> forall eps w Xw m s',
  inner_loop o dm df pen ds d q nf tol km K acc vb ws sz eps w Xw m = Ret s' -> leg (length eps * length ws) (w, Xw) s'.
Proof.
  intros ND LWS. induction eps as [|e eps IH]; intros w Xw m s' E; cbn [inner_loop] in E; [injection E as <-; apply leg_refl|].
  destruct (foldM step ws (w, Xw)) as [[w1 X1]|] eqn:E1; [|discriminate]. cbn [bind] in E.
  destruct (if acc then _ else _) as [[[w2 X2] m2]|] eqn:E2; [|discriminate]. cbn [bind] in E. cbv zeta in E.
  assert (R : (w2, X2) = (w1, X1) \/ recomputed (w2, X2)). { destruct acc; [exact (accel_trace NF _ _ _ _ _ _ _ _ _ _ ND LWS E2)|injection E2 as <- <- _; left; reflexivity]. }
  cbn [length Nat.mul]. apply (leg_cons _ ws (w, Xw) (w1, X1) (w2, X2) s' E1 R).
  destruct (_ && _); [|exact (IH _ _ _ _ E)]. destruct (df_value _ _ _ _); [|discriminate]. cbn [bind] in E. destruct (opt_cond_violation _ _ _ _ _ _ _ _) as [[kk mx]|]; [|discriminate]. cbn [bind] in E.
  destruct (sz =? nf); [destruct (fle o _ _)|destruct (flt o _ _)]; try (injection E as <-; apply leg_refl); exact (IH _ _ _ _ E).
Qed.
Lemma ocv_len w Xw ws sc m : opt_cond_violation df pen ds w Xw ws d q = Ret (sc, m) -> length sc = length ws.
Proof using OS.
  unfold opt_cond_violation. destruct (construct_grad _ _ _ _ _) as [g|] eqn:E; [|discriminate]. cbn [bind]. intros H. apply (OS w g ws sc m); [|exact H].
  unfold construct_grad in E. apply mapM_inv in E. clear H. induction E; cbn [length]; congruence.
Qed.
Lemma ws_nodup kkt w ws0 ws sz : length kkt = length w -> ws0 <= length w -> construct_ws_from_kkt o srt kkt w ws0 = Ret (ws, sz) -> NoDup ws /\ length ws <= length w.
Proof using VS.
  intros L H0 E. rewrite construct_ws_select in E by exact L. unfold select in E. cbv zeta in E. set (sz' := Nat.max ws0 _) in *.
  assert (Hsz : sz' <= length w) by (unfold sz'; lia). unfold argsort_desc in E. set (m := marked o (nzv o w) (length w) kkt) in *. assert (Lm : length m = length w) by apply tab_length.
  destruct ((2 <=? length m) && existsb (fisnan o) m) eqn:EN; [discriminate|]. cbn [bind] in E. destruct (length (firstn sz' (srt m)) =? sz') eqn:EL; [|discriminate]. injection E as <- _. apply Nat.eqb_eq in EL. split; [|lia].
  apply andb_false_iff in EN as [EN|EN].
  - apply Nat.leb_gt in EN. assert (L1 : length (firstn sz' (srt m)) <= 1) by lia. destruct (firstn sz' (srt m)) as [|a [|b l]]; [constructor|constructor; [intros []|constructor]|cbn [length] in L1; lia].
  - destruct (VS m EN) as [PM _]. apply NoDup_firstn. apply (Permutation_NoDup (Permutation_sym PM)), seq_NoDup.
Qed.
Lemma outer_trace (NF : dm_n_features dm (design_matrix ds) = Ret p) ws0 me tol K acc vb : ws0 <= p -> forall it w Xw w', length w = p ->
  outer_loop o dm df pen srt ds d q p ws0 me tol K acc vb it w Xw = Ret w' ->
  exists k Xw', k <= it /\ rounds o dm df pen ds d q p n tol (me * p) k (w, Xw) (w', Xw') /\ (k = it \/ tested o df pen ds d q p tol true (w', Xw')).
Proof using VS OS.
  intros H0. induction it as [|it IH]; intros w Xw w' L E; cbn [outer_loop] in E.
  - injection E as <-. exists 0, Xw. split; [lia|]. split; [constructor|left; reflexivity].
  - destruct (opt_cond_violation df pen ds w Xw (seq 0 p) d q) as [[kk mx]|] eqn:EO; [|discriminate]. cbn [bind] in E. destruct (fle o mx tol) eqn:ET.
    + injection E as <-. exists 0, Xw. split; [lia|]. split; [constructor|right; exists kk, mx; split; [exact EO|exact ET]].
    + destruct (construct_ws_from_kkt o srt kk w ws0) as [[ws sz]|] eqn:EW; [|discriminate]. cbn [bind] in E.
      assert (LK : length kk = length w) by (rewrite (ocv_len _ _ _ _ _ EO), seq_length; auto).
      destruct (ws_nodup kk w ws0 ws sz LK ltac:(lia) EW) as [ND LW].
      destruct (inner_loop _ _ _ _ _ _ _ _ _ _ _ _ _ _ _ _ _ _ _) as [[w1 X1]|] eqn:EI; [|discriminate]. cbn [bind] in E.
      pose proof (inner_trace NF _ _ _ _ _ _ _ _ ND ltac:(lia) _ _ _ _ _ EI) as LG. rewrite seq_length in LG. assert (LG' : leg (me * p) (w, Xw) (w1, X1)) by (apply (leg_more _ _ _ _ LG), Nat.mul_le_mono_l; lia).
      destruct (IH w1 X1 w' (leg_len _ (w, Xw) (w1, X1) L LG') E) as (k & X' & A & B & C). exists (S k), X'. split; [lia|]. split; [|destruct C as [->|C]; auto].
      apply (rounds_more _ _ _ _ _ _ _ _ _ _ _ k (w, Xw) (w1, X1)); [exists kk, mx; split; [exact EO|exact ET]|exact LG'|exact B].
Qed.
End T.

Lemma c81 {F DM D P} (o : FOps F) (dm : DesignMatrix F DM) (df : Datafit F DM D) (pen : Penalty F P) srt ds d q s w p :
  valid_sort o srt -> one_score_each pen q -> dm_n_features dm (design_matrix ds) = Ret p -> solve o srt dm df pen s ds d q = Ret w ->
  exists d' k Xw, df_initialize df d ds = Ret d' /\ k <= s_max_iterations s /\
    rounds o dm df pen ds d' q p (n_samples (dtargets ds)) (s_tolerance s) (s_max_epochs s * p) k (zero_state o p (n_samples (dtargets ds))) (w, Xw) /\
    (k = s_max_iterations s \/ tested o df pen ds d' q p (s_tolerance s) true (w, Xw)).
Proof.
  intros VS OS NF E. unfold solve, coordinate_descent in E. cbv zeta in E. rewrite NF in E. cbn [bind] in E. destruct (df_initialize df d ds) as [d'|]; [|discriminate]. cbn [bind] in E.
  set (ws0 := if p <? _ then _ else _) in E. assert (H0 : ws0 <= p) by (unfold ws0; destruct (p <? _) eqn:H; [apply le_n|apply Nat.ltb_ge in H; exact H]).
  destruct (outer_trace o dm df pen srt VS ds d' q p OS NF _ _ _ _ _ _ H0 _ _ _ _ (repeat_length _ _) E) as (k & X & A & B & C).
  exists d', k, X. split; [reflexivity|]. split; [exact A|]. split; [exact B|exact C].
Qed.
