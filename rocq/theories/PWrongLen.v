(** Direct calls of the datafits with a model fit of the wrong length. *)
From Coq Require Import List ZArith Bool Arith Lia Reals Lra.
From Verif Require Import Ops Arr XR RSum SpecLin PLin PPenVal SpecSolve SpecData SpecShape MUtils MDatasets MDatafits MDatafitsMT PBase PStruct PShape PData PDatafit.
Import ListNotations.
Local Open Scope nat_scope.

Lemma foldM_eq_in {S A} (f g : S -> A -> res S) l : (forall s a, In a l -> f s a = g s a) -> forall s, foldM f l s = foldM g l s.
Proof. induction l as [|a l IH]; intros H s; cbn [foldM]; [reflexivity|]. rewrite (H s a (or_introl eq_refl)). destruct (g s a); [|reflexivity]. cbn [bind]. apply IH. intros; apply H; right; assumption. Qed.
Lemma map2_repeat_r {A B C} (f : A -> B -> C) a x : map2 f a (repeat x (length a)) = map (fun z => f z x) a.
Proof. induction a as [|z a IH]; [reflexivity|]. cbn. unfold map2 in IH. rewrite IH. reflexivity. Qed.
Lemma combine_prefix {A B} (a : list A) (b e : list B) : length b = length a -> combine a (b ++ e) = combine a b.
Proof. revert b. induction a as [|x a IH]; intros [|y b] H; try discriminate; [destruct e; reflexivity|]. cbn. rewrite IH by (cbn in H; lia). reflexivity. Qed.
Lemma combine_prefix_l {A B} (a e : list A) (b : list B) : length b = length a -> combine (a ++ e) b = combine a b.
Proof. revert b. induction a as [|x a IH]; intros [|y b] H; try discriminate; [destruct e; reflexivity|]. cbn. rewrite IH by (cbn in H; lia). reflexivity. Qed.

Lemma nth_repeat_lt {A} (x d : A) n : forall k, k < n -> nth k (repeat x n) d = x.
Proof. induction n as [|n IH]; intros [|k] H; try lia; [reflexivity|]. apply IH. lia. Qed.
Lemma seq_add_map n e : forall a, seq (a + n) e = map (fun i => n + i) (seq a e).
Proof. induction e as [|e IH]; intros a; [reflexivity|]. cbn [seq map]. rewrite <- IH. cbn [Nat.add]. rewrite (Nat.add_comm n a). reflexivity. Qed.
Section W.
Context {F : Type} (o : FOps F).
Lemma vbin_accepts (f : F -> F -> F) a b : length a = length b \/ length a = 1 \/ length b = 1 -> exists r, vbin f a b = Ret r.
Proof.
  intros H. unfold vbin. destruct (Nat.eqb_spec (length a) (length b)); [eexists; reflexivity|]. destruct a as [|x [|x' a]].
  - destruct b as [|y [|y' b]]; cbn in *; [lia|eexists; reflexivity|lia].
  - eexists. reflexivity.
  - destruct b as [|y [|y' b]]; cbn in *; [lia|eexists; reflexivity|lia].
Qed.
Lemma vbin_refuses (f : F -> F -> F) a b : length a <> length b -> length a <> 1 -> length b <> 1 -> vbin f a b = Panic PShape.
Proof.
  intros H Ha Hb. unfold vbin. destruct (Nat.eqb_spec (length a) (length b)); [contradiction|]. destruct a as [|x [|x' a]]; [|cbn in Ha; lia|]; destruct b as [|y [|y' b]]; cbn in *; try lia; reflexivity.
Qed.
Lemma vbin_repeat (f : F -> F -> F) a x : vbin f a [x] = vbin f a (repeat x (length a)).
Proof.
  unfold vbin. rewrite repeat_length, Nat.eqb_refl, map2_repeat_r. destruct a as [|z [|z' a]]; reflexivity.
Qed.

Lemma squared_loss {DM} d (X : DM) t y Xw : single_target (f0 o) t = Ret y ->
  (length y = length Xw \/ length y = 1 \/ length Xw = 1 -> exists v, quad_value o d (Dataset X t) Xw = Ret v) /\
  (length y <> length Xw -> length y <> 1 -> length Xw <> 1 -> quad_value o d (Dataset X t) Xw = Panic PShape) /\
  (forall x, quad_value o d (Dataset X t) [x] = quad_value o d (Dataset X t) (repeat x (length y))).
Proof.
  intros Hy. unfold quad_value. cbn [dtargets]. rewrite Hy. cbn [bind]. unfold vsub. split; [|split].
  - intros H. destruct (vbin_accepts (fsub o) y Xw H) as (r & ->). cbn [bind]. unfold vdot. rewrite Nat.eqb_refl. eexists. reflexivity.
  - intros H1 H2 H3. rewrite vbin_refuses by assumption. reflexivity.
  - intros x. rewrite vbin_repeat. reflexivity.
Qed.
Lemma logistic_total {DM} d (X : DM) t y Xw e : single_target (f0 o) t = Ret y ->
  (exists v, log_value o d (Dataset X t) Xw = Ret v) /\ (length Xw = length y -> log_value o d (Dataset X t) (Xw ++ e) = log_value o d (Dataset X t) Xw).
Proof.
  intros Hy. unfold log_value. cbn [dtargets]. rewrite Hy. cbn [bind]. split; [eexists; reflexivity|]. intros L. unfold map2. rewrite combine_prefix_l by congruence. reflexivity.
Qed.

Lemma quad_grad_refuses n p X t d Xw j : shaped n p X -> j < p -> length Xw <> n -> quad_dense_gradient_j o d (Dataset X t) Xw j = Panic PShape.
Proof.
  intros HX Hj HL. unfold quad_dense_gradient_j. cbn [design_matrix]. destruct (t_mcol (f0 o) n p X j HX Hj) as (c & -> & Lc). cbn [bind]. unfold vdot.
  destruct (Nat.eqb_spec (length c) (length Xw)); [congruence|]. reflexivity.
Qed.
Lemma log_grad_refuses n p X t d Xw j : shaped n p X -> target1_wf n t -> j < p -> length Xw < n -> log_dense_gradient_j o d (Dataset X t) Xw j = Panic PShape.
Proof.
  intros HX Ht Hj HL. unfold log_dense_gradient_j. cbn [design_matrix dtargets]. destruct (single_ok o n t Ht) as (y & -> & Ly). cbn [bind]. destruct (t_mcol (f0 o) n p X j HX Hj) as (c & -> & Lc). cbn [bind]. unfold vdot.
  match goal with |- context [length c =? length ?z] => destruct (Nat.eqb_spec (length c) (length z)) as [E|]; [|reflexivity] end. rewrite map2_length in E. lia.
Qed.
Lemma log_grad_longer n p X t d Xw e j : shaped n p X -> target1_wf n t -> j < p -> length Xw = n ->
  exists v, log_dense_gradient_j o d (Dataset X t) Xw j = Ret (fdiv o v (fcast o n)) /\ log_dense_gradient_j o d (Dataset X t) (Xw ++ e) j = Ret (fdiv o v (fcast o (n + length e))).
Proof.
  intros HX Ht Hj HL. unfold log_dense_gradient_j. cbn [design_matrix dtargets]. destruct (single_ok o n t Ht) as (y & -> & Ly). cbn [bind]. destruct (t_mcol (f0 o) n p X j HX Hj) as (c & -> & Lc). cbn [bind].
  unfold map2. rewrite combine_prefix by congruence. rewrite app_length, HL. unfold vdot. rewrite map_length, combine_length, Lc, Ly, HL, Nat.min_id, Nat.eqb_refl. cbn [bind]. eexists. split; reflexivity.
Qed.

Lemma vgetz_prefix (Xw e : list F) n i : length Xw = n -> (0 <= i < Z.of_nat n)%Z -> vgetz (Xw ++ e) i = vgetz Xw i.
Proof.
  intros HL Hi. unfold vgetz. rewrite (proj2 (Z.ltb_ge _ _)) by lia. unfold vget. rewrite nth_error_app1 by lia. reflexivity.
Qed.
Lemma sparse_longer n p X t d d' Xw e j : csc_wf n p X -> j < p -> length Xw = n ->
  quad_sparse_gradient_j o d (Dataset X t) (Xw ++ e) j = quad_sparse_gradient_j o d (Dataset X t) Xw j /\
  log_sparse_gradient_j o d' (Dataset X t) (Xw ++ e) j = log_sparse_gradient_j o d' (Dataset X t) Xw j.
Proof.
  intros HX Hj HL. destruct (t_range n p X j HX Hj) as (r & Er & Hr). split.
  - unfold quad_sparse_gradient_j. cbn [design_matrix dtargets]. rewrite Er. cbn [bind]. erewrite foldM_eq_in; [reflexivity|]. intros s a Ha. cbv beta.
    destruct (vgetz (cdata X) a); [|reflexivity]. cbn [bind]. destruct (t_index n p X a HX (Hr a Ha)) as (i & -> & Hi). cbn [bind]. rewrite (vgetz_prefix Xw e n) by auto. reflexivity.
  - unfold log_sparse_gradient_j. cbn [design_matrix dtargets]. destruct (single_target _ _); [|reflexivity]. cbn [bind]. rewrite Er. cbn [bind]. apply foldM_eq_in. intros s a' Ha.
    destruct (vgetz (cdata X) a'); [|reflexivity]. cbn [bind]. destruct (t_index n p X a' HX (Hr a' Ha)) as (i & -> & Hi). cbn [bind]. rewrite (vgetz_prefix Xw e n) by auto. reflexivity.
Qed.

Lemma update_lengths n p X Xw k j : shaped n p X -> j < p ->
  (length Xw <> n -> n <> 1 -> dense_update o X Xw k j = Panic PShape) /\
  (forall x, n = 1 -> nth_error (concat (mrows X)) j = Some x -> dense_update o X Xw k j = Ret (map (fun v => fadd o v (fmul o k x)) Xw)).
Proof.
  intros HX Hj. assert (HX' := HX). unfold dense_update. destruct (t_mcol (f0 o) n p X j HX Hj) as (c & Ec & Lc). rewrite Ec. cbn [bind]. unfold vaxpy. split.
  - intros HL Hn. destruct (Nat.eqb_spec (length Xw) (length c)); [congruence|]. destruct c as [|x [|]]; [reflexivity|cbn in Lc; congruence|reflexivity].
  - intros x -> Hx. destruct HX' as (H1 & H2 & H3 & H4). rewrite H1 in H3. destruct (mrows X) as [|r [|]] eqn:Er; try discriminate. cbn in Hx. rewrite app_nil_r in Hx.
    unfold mcol in Ec. destruct (_ <? _); [|discriminate]. injection Ec as <-. unfold colv in *. rewrite Er in *. cbn [map length] in *. rewrite (nth_error_nth _ _ _ Hx).
    destruct (Nat.eqb_spec (length Xw) 1) as [E|E]; [|reflexivity]. destruct Xw as [|z [|]]; try discriminate. reflexivity.
Qed.

(** multi-task *)
Lemma codim_some a b : repeatable a b <-> exists n, codim a b = Some n.
Proof.
  unfold repeatable, codim. destruct (Nat.eqb_spec a b); [split; [eexists; reflexivity|auto]|]. destruct (Nat.eqb_spec a 1); [split; [eexists; reflexivity|auto]|].
  destruct (Nat.eqb_spec b 1); [split; [eexists; reflexivity|auto]|]. split; [lia|intros (? & ?); discriminate].
Qed.
Lemma squared_loss_mt {DM} d (X : DM) t n T XW : target_wf n T t ->
  (repeatable n (mnr XW) /\ repeatable T (mnc XW) -> exists v, qmt_value o d (Dataset X t) XW = Ret v) /\
  (~ (repeatable n (mnr XW) /\ repeatable T (mnc XW)) -> qmt_value o d (Dataset X t) XW = Panic PShape).
Proof.
  intros Ht. destruct (target_ns n T t Ht) as (_ & _ & (Y1 & Y2 & _)). unfold qmt_value, msub. cbn [dtargets]. rewrite Y1, Y2.
  destruct ((n =? mnr XW) && (T =? mnc XW)) eqn:E.
  - split; [eexists; reflexivity|]. intros H. exfalso. apply H. apply andb_true_iff in E as [E1 E2]. apply Nat.eqb_eq in E1, E2. unfold repeatable. auto.
  - rewrite !codim_some. split.
    + intros [(r & ->) (c & ->)]. eexists. reflexivity.
    + intros H. destruct (codim n (mnr XW)); [|reflexivity]. destruct (codim T (mnc XW)); [|reflexivity]. exfalso. apply H. split; eexists; reflexivity.
Qed.
Lemma grad_one_column n p T X t d0 d z j : shaped n p X -> target_wf n T t -> j < p -> length z = n -> dfm_initialize (qmt_dense o) d0 (Dataset X t) = Ret d ->
  dfm_gradient_j (qmt_dense o) d (Dataset X t) (Mat n 1 (map (fun x => [x]) z)) j = dfm_gradient_j (qmt_dense o) d (Dataset X t) (Mat n T (map (fun x => repeat x T) z)) j.
Proof.
  intros HX Ht Hj Lz HI. cbn [dfm_gradient_j qmt_dense]. unfold qmt_dense_gradient_j. cbn [design_matrix dtargets]. destruct (t_mcol (f0 o) n p X j HX Hj) as (c & -> & Lc). cbn [bind].
  unfold vtm. cbn [mnr]. rewrite Lc, Nat.eqb_refl. cbn [bind].
  assert (HR : exists b, mrow (qm_XtY d) j = Ret b /\ length b = T).
  { destruct (target_ns n T t Ht) as (_ & _ & (Y1 & Y2 & _)). cbn [dfm_initialize qmt_dense] in HI. unfold qmt_dense_initialize in HI. cbn [design_matrix dtargets] in HI. unfold mtm in HI. destruct (_ =? _); [|discriminate]. injection HI as <-. cbn [qm_XtY].
    unfold mrow. cbn [mrows mnr]. unfold vget. rewrite nth_error_map. unfold cols at 2. rewrite nth_error_map. destruct HX as (_ & H2 & _). rewrite (nth_error_nth' _ 0) by (rewrite seq_length; lia). cbn [option_map].
    eexists. split; [reflexivity|]. rewrite map_length. unfold cols. rewrite map_length, seq_length. exact Y2. }
  destruct HR as (b & -> & Lb). cbn [bind]. f_equal.
  assert (C1 : cols (f0 o) (Mat n 1 (map (fun x => [x]) z)) = [z]).
  { unfold cols, colv. cbn [mnc mrows seq map]. rewrite map_map. cbn [nth]. rewrite map_id. reflexivity. }
  assert (C2 : cols (f0 o) (Mat n T (map (fun x => repeat x T) z)) = repeat z T).
  { unfold cols, colv. cbn [mnc mrows]. apply nth_ext with (d := []) (d' := []); [rewrite map_length, seq_length, repeat_length; reflexivity|].
    intros k Hk. rewrite map_length, seq_length in Hk. rewrite nth_repeat_lt by exact Hk. rewrite (nth_indep _ [] ((fun j0 => map (fun r => nth j0 r (f0 o)) (map (fun x => repeat x T) z)) 0)) by (rewrite map_length, seq_length; exact Hk).
    rewrite (map_nth (fun j0 => map (fun r => nth j0 r (f0 o)) (map (fun x => repeat x T) z))), seq_nth by exact Hk. rewrite map_map. cbn [Nat.add].
    rewrite (map_ext_in _ (fun x => x)); [apply map_id|]. intros x _. apply nth_repeat_lt. exact Hk. }
  rewrite C1, C2. cbn [map]. unfold vsub, vbin. rewrite map_length, repeat_length, Lb, Nat.eqb_refl. cbn [length]. destruct (Nat.eqb_spec 1 T) as [<-|E]; [reflexivity|].
  f_equal. rewrite <- Lb. clear. unfold map2. induction b as [|x b IH]; [reflexivity|]. cbn [length repeat map combine]. rewrite IH. reflexivity.
Qed.
End W.

(** over the reals *)
Local Open Scope R_scope.
Lemma short_logistic {DM} n k (D : DM) t y d z : (1 <= n)%nat -> (k <= n)%nat -> single_target_of n y t ->
  log_value xops d (Dataset D t) (xv k z) = Ret (Fin (Sum k (fun i => ln (1 + exp (- (y i * z i)))) / INR n)).
Proof.
  intros Hn Hk Ht. unfold log_value. cbn [dtargets]. change (f0 xops) with (Fin 0). rewrite (target_single n y t Ht). cbn [bind]. rewrite xv_length.
  assert (E : map2 (fun a b => flog xops (fadd xops (f1 xops) (fexp xops (fmul xops (fneg xops a) b))) (fe xops)) (xv k z) (xv n y) = map2 (fun a b => flog xops (fadd xops (f1 xops) (fexp xops (fmul xops (fneg xops a) b))) (fe xops)) (xv k z) (xv k y)).
  { replace n with (k + (n - k))%nat by lia. unfold xv at 2. unfold tab. rewrite seq_app, map_app. unfold map2. rewrite combine_prefix by (unfold xv, tab; rewrite !map_length, !seq_length; reflexivity). reflexivity. }
  rewrite E. unfold xv. rewrite map2_tab. rewrite (tab_ext _ _ (fun i => Fin (ln (1 + exp (- (y i * z i)))))).
  - cbn [isum xops]. rewrite xsum_tab, xdiv_n by auto. reflexivity.
  - intros i Hi. cbn [fneg fmul xops xopp xmul]. rewrite (log1p_fin (- z i * y i)). do 4 f_equal. ring.
Qed.
Lemma single_sample_loss {DM} m (D : DM) a d z : quad_value xops d (Dataset D (T1 [Fin a])) (xv m z) = Ret (Fin (Sum m (fun i => (a - z i) * (a - z i)) / 2)).
Proof.
  unfold quad_value. cbn [dtargets n_samples length]. change (T1 [Fin a]) with (T1 (xv 1 (fun _ => a))). change (f0 xops) with (Fin 0). rewrite (target_single 1 (fun _ => a) _ (or_introl eq_refl)). cbn [bind].
  assert (E : vsub xops (xv 1 (fun _ => a)) (xv m z) = Ret (xv m (fun i => a - z i))).
  { unfold vsub, vbin. rewrite !xv_length. destruct (Nat.eqb_spec 1 m) as [<-|N]; [reflexivity|]. change (xv 1 (fun _ => a)) with [Fin a]. cbv iota. unfold xv. rewrite map_tab. reflexivity. }
  rewrite E. cbn [bind]. rewrite vdot_xv. cbn [bind]. change (fcast xops (2 * 1)) with (Fin (INR 2)). cbn [fdiv xops]. rewrite xdiv_fin by (simpl; lra). reflexivity.
Qed.
Lemma long_logistic_gradient n e p X t y d z j : (1 <= n)%nat -> single_target_of n y t -> (j < p)%nat ->
  exists g, log_dense_gradient_j xops d (Dataset (xm n p X) t) (xv n z) j = Ret (Fin g) /\ log_dense_gradient_j xops d (Dataset (xm n p X) t) (xv (n + e) z) j = Ret (Fin (INR n / INR (n + e) * g)).
Proof.
  intros Hn Ht Hj. exists (glT n X y (fun i _ => z i) j 0). split; [exact (log_dense_grad n p X t y d (fun i _ => z i) j Hn Ht Hj)|].
  unfold log_dense_gradient_j. cbn [dtargets design_matrix]. change (f0 xops) with (Fin 0). rewrite (target_single n y t Ht). cbn [bind]. cbv zeta. unfold xm. rewrite mcol_tabm by auto. cbn [bind]. rewrite xv_length.
  assert (E : xv (n + e) z = xv n z ++ xv e (fun i => z (n + i)%nat)).
  { unfold xv, tab. rewrite seq_app, map_app. f_equal. cbn [Nat.add]. change (seq n e) with (seq (0 + n) e). rewrite seq_add_map, map_map. reflexivity. }
  rewrite E. unfold map2. rewrite combine_prefix by (rewrite !xv_length; reflexivity). fold (map2 (fun y_i xw_i => fmul xops y_i (sigmoid xops (fmul xops (fneg xops y_i) xw_i))) (xv n y) (xv n z)).
  unfold xv at 1 2. rewrite map2_tab.
  rewrite (tab_ext n (fun i => fmul xops (Fin (y i)) _) (fun i => Fin (y i * sig (- y i * z i)))).
  - change (tab n (fun i => Fin (X i j))) with (xv n (fun i => X i j)). change (tab n (fun i => Fin (y i * sig (- y i * z i)))) with (xv n (fun i => y i * sig (- y i * z i))).
    rewrite vdot_xv. cbn [bind fneg xops xopp]. rewrite xdiv_n by lia. do 2 f_equal. unfold glT, gl. assert (INR n <> 0) by (apply not_0_INR; lia). assert (INR (n + e) <> 0) by (apply not_0_INR; lia). field. split; assumption.
  - intros i Hi. change (fmul xops (fneg xops (Fin (y i))) (Fin (z i))) with (Fin (- y i * z i)). rewrite sigmoid_fin. reflexivity.
Qed.
(** multi-task: the axes of length one are repeated *)
Lemma stretch_tab {A} n N (f : nat -> A) : (1 <= n)%nat -> n = 1%nat \/ n = N -> stretch N (tab n f) = tab N (fun i => f (repeated n i)).
Proof.
  intros Hn H. unfold repeated. destruct (Nat.eqb_spec n 1) as [->|E].
  - unfold tab at 1. cbn [seq map stretch]. clear. symmetry. unfold tab. generalize (seq_length N 0). generalize (seq 0 N). intros l <-. induction l as [|z l IH]; [reflexivity|]. cbn [map length repeat]. rewrite IH. reflexivity.
  - destruct H as [?|<-]; [contradiction|]. destruct n as [|[|n]]; [lia|lia|]. reflexivity.
Qed.
Lemma codim_max n m : (1 <= n)%nat -> (1 <= m)%nat -> repeatable n m -> codim n m = Some (Nat.max n m).
Proof. unfold codim, repeatable. intros Hn Hm H. destruct (Nat.eqb_spec n m); [f_equal; lia|]. destruct (Nat.eqb_spec n 1); [f_equal; lia|]. destruct (Nat.eqb_spec m 1); [f_equal; lia|]. lia. Qed.
Lemma rows_tab n T R C (f : nat -> nat -> xr) : (1 <= n)%nat -> (1 <= T)%nat -> n = 1%nat \/ n = R -> T = 1%nat \/ T = C ->
  stretch R (map (stretch C) (tab n (fun i => tab T (f i)))) = tab R (fun i => tab C (fun t => f (repeated n i) (repeated T t))).
Proof. intros Hn HT HR HC. rewrite map_tab, stretch_tab by assumption. apply tab_ext. intros i Hi. apply stretch_tab; assumption. Qed.
Lemma repeated_loss {DM} n T r c (D : DM) t Y d Z : (1 <= n)%nat -> (1 <= T)%nat -> (1 <= r)%nat -> (1 <= c)%nat -> multi_target_of n T Y t -> repeatable n r -> repeatable T c ->
  qmt_value xops d (Dataset D t) (xm r c Z) = Ret (Fin (Sum (Nat.max n r) (fun i => Sum (Nat.max T c) (fun k => (Y (repeated n i) (repeated T k) - Z (repeated r i) (repeated c k)) ^ 2)) / (2 * INR n))).
Proof.
  intros Hn HT Hr Hc Ht H1 H2. destruct (target_mt_n n T Y t Ht) as (N1 & N2 & N3). unfold qmt_value. cbn [dtargets]. cbv zeta. rewrite N1, N3. unfold msub. cbn [xm tabm mnr mnc mrows].
  assert (E : (if (n =? r)%nat && (T =? c)%nat then Ret (Mat n T (map2 (map2 (fsub xops)) (tab n (fun i => tab T (fun k => Fin (Y i k)))) (tab r (fun i => tab c (fun k => Fin (Z i k))))))
    else match codim n r, codim T c with Some R, Some C => Ret (Mat R C (map2 (map2 (fsub xops)) (stretch R (map (stretch C) (tab n (fun i => tab T (fun k => Fin (Y i k)))))) (stretch R (map (stretch C) (tab r (fun i => tab c (fun k => Fin (Z i k)))))))) | _, _ => Panic PShape end)
    = Ret (Mat (Nat.max n r) (Nat.max T c) (tab (Nat.max n r) (fun i => tab (Nat.max T c) (fun k => Fin (Y (repeated n i) (repeated T k) - Z (repeated r i) (repeated c k))))))).
  { rewrite !codim_max by assumption. unfold repeatable in H1, H2. rewrite !rows_tab by (assumption || lia).
    assert (Q : map2 (map2 (fsub xops)) (tab (Nat.max n r) (fun i => tab (Nat.max T c) (fun k => Fin (Y (repeated n i) (repeated T k))))) (tab (Nat.max n r) (fun i => tab (Nat.max T c) (fun k => Fin (Z (repeated r i) (repeated c k))))) = tab (Nat.max n r) (fun i => tab (Nat.max T c) (fun k => Fin (Y (repeated n i) (repeated T k) - Z (repeated r i) (repeated c k))))).
    { rewrite map2_tab. apply tab_ext. intros i Hi. apply map2_tab. }
    destruct ((n =? r)%nat && (T =? c)%nat) eqn:B; [|rewrite Q; reflexivity]. apply andb_true_iff in B as [B1 B2]. apply Nat.eqb_eq in B1, B2. subst r c. rewrite !Nat.max_id in *. rewrite <- Q.
    assert (S1 : forall m i, (i < m)%nat -> repeated m i = i) by (intros m i Hi; unfold repeated; destruct (Nat.eqb_spec m 1); lia).
    do 3 f_equal; apply tab_ext; intros i Hi; apply tab_ext; intros k Hk; rewrite !S1 by assumption; reflexivity. }
  cbn [fsub xops] in E |- *. rewrite E. cbn [bind mrows]. rewrite map_concat_tab. unfold sq. cbn [fmul xops xmul isum].
  rewrite <- (map_concat_tab Fin (Nat.max n r) (Nat.max T c) (fun i k => (Y (repeated n i) (repeated T k) - Z (repeated r i) (repeated c k)) * (Y (repeated n i) (repeated T k) - Z (repeated r i) (repeated c k)))).
  rewrite xsum_fin, concat_sum, xdiv_2n by auto. do 3 f_equal. apply Sum_ext. intros. apply Sum_ext. intros. ring.
Qed.
