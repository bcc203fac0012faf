(** How many features a run can select: any arithmetic. *)
From Coq Require Import List ZArith Bool Arith Lia.
From Verif Require Import Ops Arr MUtils MDatasets MDatafits MDatafitsMT MPenalties MBlockPenalties MCd MBcd MHyper MEstimators SpecSelect PBase.
Import ListNotations.

(** bound on the count after [it] more rounds, from [c] selected items *)
Fixpoint capacity (ws0 it c : nat) : nat := match it with O => c | S it => capacity ws0 it (c + Nat.max ws0 (2 * c)) end.
Lemma capacity_mono ws0 it : forall a b, a <= b -> capacity ws0 it a <= capacity ws0 it b.
Proof. induction it; intros a b H; cbn [capacity]; auto. apply IHit. lia. Qed.
Lemma capacity_ge ws0 it : forall c, c <= capacity ws0 it c.
Proof. induction it; intros c; cbn [capacity]; auto. eapply Nat.le_trans; [|apply IHit]. lia. Qed.
Lemma capacity_mono_ws it : forall a b c, a <= b -> capacity a it c <= capacity b it c.
Proof. induction it; intros a b c H; cbn [capacity]; auto. eapply Nat.le_trans; [apply IHit; exact H|]. apply capacity_mono. lia. Qed.
Lemma capacity_big ws0 it : forall c, ws0 <= 2 * c -> capacity ws0 it c = 3 ^ it * c.
Proof. induction it; intros c H; cbn [capacity]; [cbn; lia|]. rewrite IHit by lia. rewrite Nat.pow_succ_r'. replace (c + Nat.max ws0 (2 * c)) with (3 * c) by lia. lia. Qed.
Lemma capacity_closed ws0 it : capacity ws0 it 0 = match it with O => 0 | S k => ws0 * 3 ^ k end.
Proof. destruct it; auto. cbn [capacity]. rewrite capacity_big by lia. lia. Qed.

Section Lists.
Context {A : Type} (nz : A -> bool).
Definition cnt (l : list A) : nat := length (filter nz l).
(** the selected items of [l'] are those of [l], and items at positions in [ws] *)
Definition grow (ws : list nat) (l l' : list A) : Prop :=
  length l' = length l /\ forall j x', nth_error l' j = Some x' -> nz x' = true -> In j ws \/ exists x, nth_error l j = Some x /\ nz x = true.
Lemma grow_refl ws l : grow ws l l.
Proof. split; eauto. Qed.
Lemma grow_trans ws a b c : grow ws a b -> grow ws b c -> grow ws a c.
Proof. intros [L1 H1] [L2 H2]. split; [congruence|]. intros j x E N. destruct (H2 j x E N) as [|(y & E' & N')]; [auto|eapply H1; eauto]. Qed.
Lemma nth_error_upd_neq (l : list A) i j x : i <> j -> nth_error (upd l j x) i = nth_error l i.
Proof. revert i j. induction l as [|a l IH]; intros [|i] [|j] H; cbn; auto; try lia. Qed.
Lemma grow_upd ws l j x : In j ws -> grow ws l (upd l j x).
Proof.
  intros Hj. split; [apply upd_length|]. intros i y E N. destruct (Nat.eq_dec i j) as [->|Hne]; auto. right. exists y. split; auto. rewrite <- E. symmetry. apply nth_error_upd_neq; auto.
Qed.
Lemma grow_zero ws z n l : nz z = false -> length l = n -> grow ws l (repeat z n).
Proof.
  intros Hz Hn. split; [rewrite repeat_length; auto|]. intros j x E N. apply nth_error_In, repeat_spec in E. subst. congruence.
Qed.
Definition places (l : list A) : list nat := filter (fun j => match nth_error l j with Some x => nz x | None => false end) (seq 0 (length l)).
Lemma places_cons x l : length (places (x :: l)) = (if nz x then S (length (places l)) else length (places l)).
Proof.
  unfold places. cbn [length]. cbn [seq filter nth_error]. rewrite <- seq_shift.
  assert (E : length (filter (fun j => match nth_error (x :: l) j with Some x => nz x | None => false end) (map S (seq 0 (length l)))) =
              length (filter (fun j => match nth_error l j with Some x => nz x | None => false end) (seq 0 (length l)))).
  { induction (seq 0 (length l)) as [|a s IH]; auto. cbn [map filter nth_error]. destruct (match nth_error l a with Some _ => _ | None => _ end); cbn [length]; auto. }
  destruct (nz x); cbn [length]; rewrite E; auto.
Qed.
Lemma places_cnt l : length (places l) = cnt l.
Proof. induction l as [|x l IH]; auto. rewrite places_cons. unfold cnt in *. cbn [filter]. destruct (nz x); cbn [length]; auto. Qed.
Lemma places_in l j : In j (places l) <-> exists x, nth_error l j = Some x /\ nz x = true.
Proof.
  unfold places. rewrite filter_In, in_seq. split.
  - intros [_ H]. destruct (nth_error l j) as [x|]; [eauto|discriminate].
  - intros (x & E & N). rewrite E. split; auto. assert (j < length l) by (apply nth_error_Some; congruence). lia.
Qed.
Lemma grow_cnt ws l l' : grow ws l l' -> cnt l' <= cnt l + length ws.
Proof.
  intros [HL H]. rewrite <- !places_cnt, Nat.add_comm, <- app_length. apply NoDup_incl_length; [apply NoDup_filter, seq_NoDup|].
  intros j Hj. apply places_in in Hj as (x & E & N). apply in_app_iff. destruct (H j x E N) as [|Q]; auto. right. apply places_in; auto.
Qed.
Lemma cnt_zero z n : nz z = false -> cnt (repeat z n) = 0.
Proof. intros H. unfold cnt. induction n; cbn; rewrite ?H; auto. Qed.
End Lists.

Section CD.
Context {F DM D P : Type} (o : FOps F) (dm : DesignMatrix F DM) (df : Datafit F DM D) (pen : Penalty F P) (srt : list F -> list nat).
Context (E0 : feq o (f0 o) (f0 o) = true).
Local Notation nz := (fun x => negb (feq o x (f0 o))).
Lemma step_grow ds d q ws j s s' : In j ws -> cd_step o dm df pen ds d q s j = Ret s' -> grow nz ws (fst s) (fst s').
Proof using.
  intros Hj. destruct s as [w Xw]. unfold cd_step. destruct (vget _ j) as [lp|]; cbn [bind]; [|discriminate]. destruct (feq o lp (f0 o)); [intros [= <-]; apply grow_refl|].
  destruct (vget w j); cbn [bind]; [|discriminate]. destruct (df_gradient_j _ _ _ _ _); cbn [bind]; [|discriminate]. unfold vset. destruct (j <? length w); cbn [bind]; [|discriminate].
  destruct (negb _); [destruct (dm_update _ _ _ _ _); cbn [bind]; [|discriminate]|]; intros [= <-]; apply grow_upd; auto.
Qed.
Lemma steps_grow ds d q ws js : incl js ws -> forall s s', foldM (cd_step o dm df pen ds d q) js s = Ret s' -> grow nz ws (fst s) (fst s').
Proof using.
  induction js as [|j js IH]; intros HI s s' E; cbn [foldM] in E; [injection E as ->; apply grow_refl|].
  destruct (cd_step o dm df pen ds d q s j) as [s1|] eqn:E1; cbn [bind] in E; [|discriminate]. eapply grow_trans; [eapply step_grow; [|exact E1]|apply IH; auto]; [apply HI; left; auto|]. intros x Hx. apply HI. right; auto.
Qed.
Lemma scatter_grow n pt ws w l : scatter o n pt ws = Ret w -> length l = n -> grow nz ws l w.
Proof using E0.
  intros E Hl. unfold scatter in E.
  assert (Q : forall c, (forall e, In e c -> In (snd e) ws) -> forall a b, foldM (fun w_acc (pj : F * nat) => vset w_acc (snd pj) (fst pj)) c a = Ret b -> grow nz ws a b).
  { induction c as [|e c IH]; intros HI a b Eb; cbn [foldM] in Eb; [injection Eb as ->; apply grow_refl|].
    unfold vset at 1 in Eb. destruct (snd e <? length a); cbn [bind] in Eb; [|discriminate]. eapply grow_trans; [apply (grow_upd nz ws a (snd e) (fst e)); apply HI; left; auto|]. eapply IH; [intros; apply HI; right; assumption|exact Eb]. }
  eapply grow_trans; [apply (grow_zero nz ws (f0 o) n l); auto; cbn; rewrite E0; auto|]. apply (Q (combine pt ws)); auto. intros [x j] H. apply in_combine_r in H. auto.
Qed.
Lemma accel_grow ds d q H w Xw ws e K v w' Xw' H' p : dm_n_features dm (design_matrix ds) = Ret p -> length w = p ->
  anderson_accel o dm df pen ds d q H w Xw ws e K v = Ret (w', Xw', H') -> grow nz ws w w'.
Proof using E0.
  intros Ep Hw. unfold anderson_accel. rewrite Ep. cbn [bind]. destruct (store_iterate _ _ _ _); cbn [bind]; [|discriminate]. destruct (_ =? K); [|intros [= <- <- <-]; apply grow_refl].
  destruct (anderson_point _ _ _ _) as [[pt|]|]; cbn [bind]; [|intros [= <- <- <-]; apply grow_refl|discriminate].
  destruct (scatter o p pt ws) as [wa|] eqn:Es; cbn [bind]; [|discriminate]. destruct (dm_extrap _ _ _ _ _); cbn [bind]; [|discriminate]. destruct (df_value _ _ _ _); cbn [bind]; [|discriminate]. destruct (df_value _ _ _ _); cbn [bind]; [|discriminate].
  destruct (flt o _ _); intros [= <- <- <-]; [|apply grow_refl]. eapply scatter_grow; eauto.
Qed.
Lemma inner_grow ds d q p tol km K acc v ws wz : dm_n_features dm (design_matrix ds) = Ret p -> forall es w Xw H s', length w = p ->
  inner_loop o dm df pen ds d q p tol km K acc v ws wz es w Xw H = Ret s' -> grow nz ws w (fst s').
Proof using E0.
  intros Ep. induction es as [|e es IH]; intros w Xw H s' Hw E; cbn [inner_loop] in E; [injection E as <-; apply grow_refl|].
  destruct (foldM _ ws (w, Xw)) as [[w1 Xw1]|] eqn:E1; cbn [bind] in E; [|discriminate]. apply steps_grow with (ws := ws) in E1; [|apply incl_refl]. cbn [fst] in E1.
  assert (L1 : length w1 = p) by (destruct E1; congruence).
  destruct (if acc then _ else _) as [[[w2 Xw2] H2]|] eqn:E2; cbn [bind] in E; [|discriminate].
  assert (G2 : grow nz ws w w2).
  { eapply grow_trans; [exact E1|]. destruct acc; [eapply accel_grow; eauto|injection E2 as <- <- <-; apply grow_refl]. }
  assert (L2 : length w2 = p) by (destruct G2; congruence).
  assert (N : forall t, inner_loop o dm df pen ds d q p tol km K acc v ws wz es w2 Xw2 H2 = Ret t -> grow nz ws w (fst t)) by (intros t Et; eapply grow_trans; [exact G2|eapply IH; eauto]).
  destruct (_ && _); [|auto]. destruct (df_value _ _ _ _); cbn [bind] in E; [|discriminate]. destruct (opt_cond_violation _ _ _ _ _ _ _ _) as [[sc mx]|]; cbn [bind] in E; [|discriminate].
  destruct (wz =? p); [destruct (fle o mx tol)|destruct (flt o mx _)]; auto; injection E as <-; exact G2.
Qed.
Lemma mark_count (w : list F) kkt k' c : mark_nonzero o w kkt = Ret (k', c) -> c = cnt nz w.
Proof using.
  unfold mark_nonzero. rewrite <- places_cnt. unfold places.
  assert (Q : forall js k c0, foldM (fun st j => wj <- vget w j ;; if negb (feq o wj (f0 o)) then kkt' <- vset (fst st) j (finf o) ;; Ret (kkt', S (snd st)) else Ret st) js (k, c0) = Ret (k', c) ->
     c = c0 + length (filter (fun j => match nth_error w j with Some x => negb (feq o x (f0 o)) | None => false end) js)).
  { induction js as [|j js IH]; intros k c0 E; cbn [foldM] in E; [injection E as _ ->; cbn; lia|].
    unfold vget at 1 in E. cbn [filter]. destruct (nth_error w j); cbn [bind] in E; [|discriminate]. destruct (negb _).
    - cbn [fst snd] in E. destruct (vset k j (finf o)); cbn [bind] in E; [|discriminate]. apply IH in E. cbn [length]. lia.
    - cbn [bind] in E. apply IH in E. auto. }
  intros E. apply Q in E. auto.
Qed.
Lemma ws_count kkt w ws0 ws wz : construct_ws_from_kkt o srt kkt w ws0 = Ret (ws, wz) -> length ws <= Nat.max ws0 (2 * cnt nz w) /\ wz = length ws.
Proof using.
  unfold construct_ws_from_kkt. destruct (mark_nonzero o w kkt) as [[k' c]|] eqn:E; cbn [bind]; [|discriminate]. apply mark_count in E. subst c.
  match goal with |- context [firstn ?a _] => remember a as z eqn:Ez end. destruct (argsort_desc o srt k') as [l|]; cbn [bind]; [|discriminate]. destruct (_ =? _) eqn:E2; [|discriminate]. apply Nat.eqb_eq in E2. intros H. injection H as H1 H2. rewrite H1 in E2. split; lia.
Qed.
Lemma outer_count ds d q p ws0 me tol K acc v : dm_n_features dm (design_matrix ds) = Ret p -> forall it w Xw w', length w = p ->
  outer_loop o dm df pen srt ds d q p ws0 me tol K acc v it w Xw = Ret w' -> cnt nz w' <= capacity ws0 it (cnt nz w).
Proof using E0.
  intros Ep. induction it as [|it IH]; intros w Xw w' Hw E; cbn [outer_loop] in E; [injection E as ->; cbn; lia|].
  destruct (opt_cond_violation _ _ _ _ _ _ _ _) as [[kkt mx]|]; cbn [bind] in E; [|discriminate]. cbn [capacity].
  destruct (fle o mx tol); [injection E as ->; pose proof (capacity_mono ws0 it (cnt nz w') (cnt nz w' + Nat.max ws0 (2 * cnt nz w')) ltac:(lia)); pose proof (capacity_ge ws0 it (cnt nz w')); lia|].
  destruct (construct_ws_from_kkt _ _ _ _ _) as [[ws wz]|] eqn:E1; cbn [bind] in E; [|discriminate]. apply ws_count in E1 as [L1 ->].
  destruct (inner_loop _ _ _ _ _ _ _ _ _ _ _ _ _ _ _ _ _ _ _) as [[w1 Xw1]|] eqn:E2; cbn [bind] in E; [|discriminate]. pose proof (inner_grow _ _ _ _ _ _ _ _ _ _ _ Ep _ _ _ _ _ Hw E2) as G. cbn [fst] in G.
  apply IH in E; [|destruct G; congruence]. eapply Nat.le_trans; [exact E|]. apply capacity_mono. pose proof (grow_cnt nz ws w w1 G). lia.
Qed.
Lemma cd_count ds d q ws0 it me tol K acc v w : coordinate_descent o dm df pen srt ds d q ws0 it me tol K acc v = Ret w -> cnt nz w <= capacity ws0 it 0.
Proof using E0.
  unfold coordinate_descent. destruct (dm_n_features dm (design_matrix ds)) as [p|] eqn:Ep; cbn [bind]; [|discriminate]. destruct (df_initialize _ _ _) as [d'|]; cbn [bind]; [|discriminate].
  intros E. apply (outer_count _ _ _ _ _ _ _ _ _ _ Ep) in E; [|apply repeat_length]. unfold vzeros in E. rewrite cnt_zero in E by (rewrite E0; auto).
  eapply Nat.le_trans; [exact E|]. destruct (p <? ws0) eqn:C; auto. apply Nat.ltb_lt in C. apply capacity_mono_ws. lia.
Qed.
End CD.

Section BCD.
Context {F DM D P : Type} (o : FOps F) (dm : DesignMatrix F DM) (df : DatafitMT F DM D) (pen : PenaltyMT F P) (srt : list F -> list nat).
Context (E0 : feq o (f0 o) (f0 o) = true).
Local Notation nzr := (any_nonzero o).
Local Notation growm ws A B := (grow nzr ws (mrows A) (mrows B) /\ mnr B = mnr A).
Lemma zero_row n : nzr (repeat (f0 o) n) = false.
Proof using E0. unfold any_nonzero. induction n; cbn; rewrite ?E0; auto. Qed.
Lemma growm_refl ws (A : mat F) : growm ws A A.
Proof using. split; auto. apply grow_refl. Qed.
Lemma growm_trans ws (A B C : mat F) : growm ws A B -> growm ws B C -> growm ws A C.
Proof using. intros [H1 E1] [H2 E2]. split; [eapply grow_trans; eauto|congruence]. Qed.
Lemma mset_grow ws (W W' : mat F) j t u : In j ws -> mset W j t u = Ret W' -> growm ws W W'.
Proof using.
  intros Hj. unfold mset. destruct (vget (mrows W) j); cbn [bind]; [|discriminate]. destruct (vset _ t u); cbn [bind]; [|discriminate]. unfold vset. destruct (_ <? _); cbn [bind]; [|discriminate].
  intros [= <-]. cbn [mrows mnr]. split; auto. apply grow_upd; auto.
Qed.
Lemma mset_row_grow ws (W W' : mat F) j r : In j ws -> mset_row W j r = Ret W' -> growm ws W W'.
Proof using.
  intros Hj. unfold mset_row. destruct (vget (mrows W) j); cbn [bind]; [|discriminate]. destruct (length r =? _); [|discriminate]. unfold vset. destruct (_ <? _); cbn [bind]; [|discriminate].
  intros [= <-]. cbn [mrows mnr]. split; auto. apply grow_upd; auto.
Qed.
Lemma step_grow_mt ds d q ws j s s' : In j ws -> bcd_step o dm df pen ds d q s j = Ret s' -> growm ws (fst s) (fst s').
Proof using.
  intros Hj. destruct s as [W XW]. unfold bcd_step. destruct (vget _ j) as [lp|]; cbn [bind]; [|discriminate]. destruct (feq o lp (f0 o)); [intros [= <-]; apply growm_refl|].
  destruct (mrow W j); cbn [bind]; [|discriminate]. destruct (dfm_gradient_j _ _ _ _ _); cbn [bind]; [|discriminate]. destruct (vsub _ _ _); cbn [bind]; [|discriminate].
  match goal with |- context [foldM (fun W t => u <- vget ?x t ;; _) _ _] => set (u := x) end.
  destruct (foldM _ (seq 0 _) W) as [W1|] eqn:E1; cbn [bind]; [|discriminate].
  assert (G : growm ws W W1).
  { revert W W1 E1. generalize (seq 0 (n_tasks (dtargets ds))) as ts. clear - Hj. induction ts as [|t ts IH]; intros W W1 E1; cbn [foldM] in E1; [injection E1 as ->; apply growm_refl|].
    destruct (vget u t) as [x|]; cbn [bind] in E1; [|discriminate]. destruct (mset W j t x) as [W2|] eqn:E2; cbn [bind] in E1; [|discriminate]. eapply growm_trans; [eapply mset_grow; eauto|apply IH; auto]. }
  destruct (mapM _ _); cbn [bind]; [|discriminate]. destruct (any_nonzero o _); [destruct (dm_update_mt _ _ _ _ _); cbn [bind]; [|discriminate]|]; intros [= <-]; exact G.
Qed.
Lemma steps_grow_mt ds d q ws js : incl js ws -> forall s s', foldM (bcd_step o dm df pen ds d q) js s = Ret s' -> growm ws (fst s) (fst s').
Proof using.
  induction js as [|j js IH]; intros HI s s' E; cbn [foldM] in E; [injection E as ->; apply growm_refl|].
  destruct (bcd_step o dm df pen ds d q s j) as [s1|] eqn:E1; cbn [bind] in E; [|discriminate]. eapply growm_trans; [eapply step_grow_mt; [|exact E1]|apply IH; auto]; [apply HI; left; auto|]. intros x Hx. apply HI. right; auto.
Qed.
Lemma scatter_grow_mt n nt pt ws W (L : mat F) : scatter_mt o n nt pt ws = Ret W -> length (mrows L) = n -> mnr L = n -> growm ws L W.
Proof using E0.
  intros E Hl Hn. unfold scatter_mt in E. destruct (reshape _ _ _) as [m|]; cbn [bind] in E; [|discriminate].
  assert (Q : forall c, (forall e, In e c -> In (snd e) ws) -> forall a b, foldM (fun W_acc (rj : list F * nat) => mset_row W_acc (snd rj) (fst rj)) c a = Ret b -> growm ws a b).
  { induction c as [|e c IH]; intros HI a b Eb; cbn [foldM] in Eb; [injection Eb as ->; apply growm_refl|].
    destruct (mset_row a (snd e) (fst e)) as [a1|] eqn:E1; cbn [bind] in Eb; [|discriminate]. eapply growm_trans; [eapply mset_row_grow; [|exact E1]; apply HI; left; auto|]. eapply IH; [intros; apply HI; right; assumption|exact Eb]. }
  eapply growm_trans; [|apply (Q (combine (mrows m) ws)); [|exact E]].
  - split; [|cbn; auto]. apply (grow_zero nzr ws (repeat (f0 o) nt) n); auto. apply zero_row.
  - intros [x j] H. apply in_combine_r in H. auto.
Qed.
Lemma accel_grow_mt ds d q H W XW ws e K v W' XW' H' p : dm_n_features dm (design_matrix ds) = Ret p -> length (mrows W) = p -> mnr W = p ->
  anderson_accel_mt o dm df pen ds W XW d q ws H e K v = Ret (W', XW', H') -> growm ws W W'.
Proof using E0.
  intros Ep Hw Hn. unfold anderson_accel_mt. rewrite Ep. cbn [bind]. destruct (store_iterate_mt _ _ _ _); cbn [bind]; [|discriminate]. destruct (_ =? K); [|intros [= <- <- <-]; apply growm_refl].
  destruct (anderson_point _ _ _ _) as [[pt|]|]; cbn [bind]; [|intros [= <- <- <-]; apply growm_refl|discriminate].
  destruct (scatter_mt _ _ _ pt ws) as [wa|] eqn:Es; cbn [bind]; [|discriminate]. destruct (dm_extrap_mt _ _ _ _ _ _); cbn [bind]; [|discriminate]. destruct (dfm_value _ _ _ _); cbn [bind]; [|discriminate]. destruct (dfm_value _ _ _ _); cbn [bind]; [|discriminate].
  destruct (flt o _ _); intros [= <- <- <-]; [|apply growm_refl]. eapply scatter_grow_mt; eauto.
Qed.
Lemma inner_grow_mt ds d q p tol km K acc v ws wz : dm_n_features dm (design_matrix ds) = Ret p -> forall es W XW H s', length (mrows W) = p -> mnr W = p ->
  inner_loop_mt o dm df pen ds d q p tol km K acc v ws wz es W XW H = Ret s' -> growm ws W (fst s').
Proof using E0.
  intros Ep. induction es as [|e es IH]; intros w Xw H s' Hw Hn E; cbn [inner_loop_mt] in E; [injection E as <-; apply growm_refl|].
  destruct (foldM _ ws (w, Xw)) as [[w1 Xw1]|] eqn:E1; cbn [bind] in E; [|discriminate]. apply steps_grow_mt with (ws := ws) in E1; [|apply incl_refl]. cbn [fst] in E1.
  assert (L1 : length (mrows w1) = p) by (destruct E1 as [[? ?] ?]; congruence). assert (N1 : mnr w1 = p) by (destruct E1; congruence).
  destruct (if acc then _ else _) as [[[w2 Xw2] H2]|] eqn:E2; cbn [bind] in E; [|discriminate].
  assert (G2 : growm ws w w2).
  { eapply growm_trans; [exact E1|]. destruct acc; [eapply accel_grow_mt; eauto|injection E2 as <- <- <-; apply growm_refl]. }
  assert (L2 : length (mrows w2) = p) by (destruct G2 as [[? ?] ?]; congruence). assert (N2 : mnr w2 = p) by (destruct G2; congruence).
  assert (N : forall t, inner_loop_mt o dm df pen ds d q p tol km K acc v ws wz es w2 Xw2 H2 = Ret t -> growm ws w (fst t)) by (intros t Et; eapply growm_trans; [exact G2|eapply IH; eauto]).
  destruct (_ && _); [|auto]. destruct (dfm_value _ _ _ _); cbn [bind] in E; [|discriminate]. destruct (opt_cond_violation_mt _ _ _ _ _ _ _ _) as [[sc mx]|]; cbn [bind] in E; [|discriminate].
  destruct (wz =? p); [destruct (fle o mx tol)|destruct (flt o mx _)]; auto; injection E as <-; exact G2.
Qed.
Lemma mark_count_mt (W : mat F) kkt k' c : length (mrows W) = mnr W -> mark_nonzero_mt o W kkt = Ret (k', c) -> c = cnt nzr (mrows W).
Proof using.
  intros HL. unfold mark_nonzero_mt. rewrite <- places_cnt, <- HL. unfold places.
  assert (Q : forall js k c0, foldM (fun st j => Wj <- mrow W j ;; if any_nonzero o Wj then kkt' <- vset (fst st) j (finf o) ;; Ret (kkt', S (snd st)) else Ret st) js (k, c0) = Ret (k', c) ->
     c = c0 + length (filter (fun j => match nth_error (mrows W) j with Some x => nzr x | None => false end) js)).
  { induction js as [|j js IH]; intros k c0 E; cbn [foldM] in E; [injection E as _ ->; cbn; lia|].
    unfold mrow, vget at 1 in E. cbn [filter]. destruct (nth_error (mrows W) j); cbn [bind] in E; [|discriminate]. destruct (any_nonzero o _).
    - cbn [fst snd] in E. destruct (vset k j (finf o)); cbn [bind] in E; [|discriminate]. apply IH in E. cbn [length]. lia.
    - cbn [bind] in E. apply IH in E. auto. }
  intros E. apply Q in E. auto.
Qed.
Lemma ws_count_mt kkt W ws0 ws wz : length (mrows W) = mnr W -> construct_ws_from_kkt_mt o srt kkt W ws0 = Ret (ws, wz) -> length ws <= Nat.max ws0 (2 * cnt nzr (mrows W)) /\ wz = length ws.
Proof using.
  intros HL. unfold construct_ws_from_kkt_mt. destruct (mark_nonzero_mt o W kkt) as [[k' c]|] eqn:E; cbn [bind]; [|discriminate]. apply mark_count_mt in E; auto. subst c.
  match goal with |- context [firstn ?a _] => remember a as z eqn:Ez end. destruct (argsort_desc o srt k') as [l|]; cbn [bind]; [|discriminate]. destruct (_ =? _) eqn:E2; [|discriminate]. apply Nat.eqb_eq in E2. intros H. injection H as H1 H2. rewrite H1 in E2. split; lia.
Qed.
Lemma outer_count_mt ds d q p ws0 me tol K acc v : dm_n_features dm (design_matrix ds) = Ret p -> forall it W XW W', length (mrows W) = p -> mnr W = p ->
  outer_loop_mt o dm df pen srt ds d q p ws0 me tol K acc v it W XW = Ret W' -> cnt nzr (mrows W') <= capacity ws0 it (cnt nzr (mrows W)).
Proof using E0.
  intros Ep. induction it as [|it IH]; intros w Xw w' Hw Hn E; cbn [outer_loop_mt] in E; [injection E as ->; cbn; lia|].
  destruct (opt_cond_violation_mt _ _ _ _ _ _ _ _) as [[kkt mx]|]; cbn [bind] in E; [|discriminate]. cbn [capacity].
  destruct (fle o mx tol); [injection E as ->; eapply Nat.le_trans; [apply (capacity_ge ws0 it)|]; apply capacity_mono; lia|].
  destruct (construct_ws_from_kkt_mt _ _ _ _ _) as [[ws wz]|] eqn:E1; cbn [bind] in E; [|discriminate]. apply ws_count_mt in E1 as [L1 ->]; [|congruence].
  destruct (inner_loop_mt _ _ _ _ _ _ _ _ _ _ _ _ _ _ _ _ _ _ _) as [[w1 Xw1]|] eqn:E2; cbn [bind] in E; [|discriminate]. pose proof (inner_grow_mt _ _ _ _ _ _ _ _ _ _ _ Ep _ _ _ _ _ Hw Hn E2) as [G GN]. cbn [fst] in G, GN.
  apply IH in E; [|destruct G; congruence|congruence]. eapply Nat.le_trans; [exact E|]. apply capacity_mono. pose proof (grow_cnt nzr ws _ _ G). lia.
Qed.
Lemma bcd_count ds d q ws0 it me tol K acc v W : block_coordinate_descent o dm df pen srt ds d q ws0 it me tol K acc v = Ret W -> cnt nzr (mrows W) <= capacity ws0 it 0.
Proof using E0.
  unfold block_coordinate_descent. destruct (dm_n_features dm (design_matrix ds)) as [p|] eqn:Ep; cbn [bind]; [|discriminate]. destruct (dfm_initialize _ _ _) as [d'|]; cbn [bind]; [|discriminate].
  intros E. apply (outer_count_mt _ _ _ _ _ _ _ _ _ _ Ep) in E; [|apply repeat_length|reflexivity]. unfold mzeros, mfill in E. cbn [mrows] in E. rewrite cnt_zero in E by apply zero_row.
  eapply Nat.le_trans; [exact E|]. destruct (p <? ws0) eqn:C; auto. apply Nat.ltb_lt in C. apply capacity_mono_ws. lia.
Qed.
End BCD.
