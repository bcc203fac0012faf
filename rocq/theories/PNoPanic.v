(** Solver runs that return normally, and runs that must panic, for any float arithmetic. *)
From Coq Require Import List ZArith Bool Arith Lia Permutation.
From Verif Require Import Ops Arr MUtils MDatasets MDatafits MDatafitsMT MPenalties MBlockPenalties MCd MBcd PBase PStruct SpecSolve PShape.
Import ListNotations.

(** *** penalties *)
Section Pens.
Context {F : Type} (o : FOps F) (LF : float_laws o).
Lemma mapM_nth {A B} (f : A -> res B) l bs : mapM f l = Ret bs -> forall k a, nth_error l k = Some a -> exists b, f a = Ret b /\ nth_error bs k = Some b.
Proof.
  intros H. apply mapM_inv in H. induction H as [|a b l bs Hab HF IH]; intros k x Hk; [destruct k; discriminate|].
  destruct k as [|k]; simpl in *; [injection Hk as <-; eauto|auto].
Qed.
Lemma nth_error_combine {A B} (l : list A) (l' : list B) k a b : nth_error l k = Some a -> nth_error l' k = Some b -> nth_error (combine l l') k = Some (a, b).
Proof. revert l' k. induction l as [|x l IH]; intros [|y l'] [|k]; simpl; try discriminate; auto. congruence. Qed.
Lemma nth_error_some {A} (l : list A) k : k < length l -> exists a, nth_error l k = Some a.
Proof. intros H. destruct (nth_error l k) eqn:E; eauto. apply nth_error_None in E. lia. Qed.
Lemma vget_some {A} (l : list A) k a : nth_error l k = Some a -> vget l k = Ret a.
Proof. unfold vget. intros ->. auto. Qed.
Lemma scores_sh {P} (pen : Penalty F P) p_ score : (forall w g ws, pen_subdiff_distance pen p_ w g ws = scores o score w g ws) ->
  (forall x g, feq o x (f0 o) = true -> fisnan o (score x g) = false) -> pen_sh o pen p_.
Proof.
  intros E HS w grad ws HL Hin. rewrite E. unfold scores.
  destruct (t_mapM (fun p0 => wj <- vget w (snd p0) ;; Ret (score wj (fst p0))) (fun _ => True) (combine grad ws)) as (d & Ed & _ & HLd).
  { intros [g j] Hgj. cbn [fst snd]. apply in_combine_r in Hgj. eapply t_bind; [apply t_vget; auto|]. intros; apply t_ret; auto. }
  exists d. eexists. rewrite Ed. cbn [bind]. split; [reflexivity|]. rewrite combine_length in HLd. split; [lia|].
  intros k j x Hk Hj Hx. destruct (nth_error_some grad k) as [g Hg]. { assert (k < length ws) by (apply nth_error_Some; congruence). lia. }
  destruct (mapM_nth _ _ _ Ed k (g, j)) as (s & Es & Hs); [apply nth_error_combine; auto|]. cbn [fst snd] in Es.
  rewrite (vget_some _ _ _ Hj) in Es. cbn [bind] in Es. injection Es as <-. eauto.
Qed.
Lemma l1_sh p_ : pen_sh o (l1_penalty o) p_.
Proof. apply (scores_sh _ _ (l1_score o p_)); [reflexivity|]. intros x g Hx. unfold l1_score. rewrite Hx. apply LF. Qed.
Lemma l1l2_sh p_ : pen_sh o (l1l2_penalty o) p_.
Proof. apply (scores_sh _ _ (l1l2_score o p_)); [reflexivity|]. intros x g Hx. unfold l1l2_score. rewrite Hx. apply LF. Qed.
Lemma mcp_sh p_ : pen_sh o (mcp_penalty o) p_.
Proof. apply (scores_sh _ _ (mcp_score o p_)); [reflexivity|]. intros x g Hx. unfold mcp_score. rewrite Hx. apply LF. Qed.
Lemma l05_sh p_ : pen_sh o (l05_penalty o) p_.
Proof.
  intros w grad ws HL Hin. cbn [pen_subdiff_distance l05_penalty]. unfold l05_subdiff_distance. do 2 eexists. split; [reflexivity|].
  split; [apply vzeros_length|]. intros k j x Hk _ _. exists (f0 o). split; [|apply LF]. unfold vzeros.
  assert (k < length ws) by (apply nth_error_Some; congruence). rewrite repeat_tab. rewrite nth_error_tab; auto.
Qed.

Lemma bscores_sh {P} T (pen : PenaltyMT F P) p_ score : (forall v s, length v = T -> length (bpen_prox pen p_ v s) = T) ->
  (forall w g ws, bpen_subdiff_distance pen p_ w g ws = bscores o score w g ws) ->
  (forall x g, any_nonzero o x = false -> fisnan o (score x g) = false) -> bpen_sh o T pen p_.
Proof.
  intros HP E HS. split; auto. intros W grad ws r HW HG Hin. rewrite E. unfold bscores. destruct HG as (G1 & G2 & [G3 G4]).
  destruct (t_mapM (fun p0 => Wj <- mrow W (snd p0) ;; Ret (score Wj (fst p0))) (fun _ => True) (combine (mrows grad) ws)) as (d & Ed & _ & HLd).
  { intros [g j] Hgj. cbn [fst snd]. apply in_combine_r in Hgj. eapply t_bind; [apply (t_mrow r T); auto|]. intros; apply t_ret; auto. }
  exists d. eexists. rewrite Ed. cbn [bind]. split; [reflexivity|]. rewrite combine_length in HLd. split; [lia|].
  intros k j x Hk Hj Hx. destruct (nth_error_some (mrows grad) k) as [g Hg]. { assert (k < length ws) by (apply nth_error_Some; congruence). lia. }
  destruct (mapM_nth _ _ _ Ed k (g, j)) as (s & Es & Hs); [apply nth_error_combine; auto|]. cbn [fst snd] in Es. unfold mrow in Es.
  rewrite (vget_some _ _ _ Hj) in Es. cbn [bind] in Es. injection Es as <-. eauto.
Qed.
Lemma bst_length v s : length (block_soft_thresholding o v s) = length v.
Proof. unfold block_soft_thresholding. destruct (flt o _ _); [apply vzeros_length|apply map_length]. Qed.
Lemma l21_sh T p_ : bpen_sh o T (l21_penalty o) p_.
Proof.
  apply (bscores_sh T _ _ (l21_score o p_)); [|reflexivity|].
  - intros v s Hv. cbn. unfold l21_prox. rewrite bst_length. auto.
  - intros x g Hx. unfold l21_score. rewrite Hx. apply LF.
Qed.
Lemma bl1l2_sh T p_ : bpen_sh o T (bl1l2_penalty o) p_.
Proof.
  apply (bscores_sh T _ _ (bl1l2_score o p_)); [|reflexivity|].
  - intros v s Hv. cbn. unfold bl1l2_prox. cbv zeta. rewrite map_length, bst_length. auto.
  - intros x g Hx. unfold bl1l2_score. rewrite Hx. apply LF.
Qed.
Lemma bmcp_sh T p_ : bpen_sh o T (bmcp_penalty o) p_.
Proof.
  apply (bscores_sh T _ _ (bmcp_score o p_)); [|reflexivity|].
  - intros v s Hv. cbn. unfold bmcp_prox. cbv zeta. destruct (fle o _ _); [rewrite vzeros_length; auto|]. destruct (flt o _ _); auto. rewrite map_length; auto.
  - intros x g Hx. unfold bmcp_score. rewrite Hx. cbn [negb]. apply LF.
Qed.
End Pens.

(** *** working set *)
Section WS.
Context {F : Type} (o : FOps F) (srt : list F -> list nat).
(** features with priority infinity *)
Definition marked (nz : nat -> bool) (p : nat) (kkt : list F) : list F :=
  tab p (fun j => if nz j then finf o else nth j kkt (f0 o)).
Definition count (nz : nat -> bool) (p : nat) : nat := length (filter nz (seq 0 p)).
Lemma count_S nz k : count nz (S k) = if nz k then S (count nz k) else count nz k.
Proof. unfold count. rewrite seq_S, filter_app, app_length. simpl. destruct (nz k); simpl; lia. Qed.
Lemma mark_loop (test : nat -> res bool) nz p kkt : length kkt = p -> (forall j, j < p -> test j = Ret (nz j)) ->
  foldM (fun st j => b <- test j ;;
    if b : bool then kkt' <- vset (fst st) j (finf o) ;; Ret (kkt', S (snd st)) else Ret st) (seq 0 p) (kkt, 0)
  = Ret (marked nz p kkt, count nz p).
Proof.
  intros HL HT.
  set (st := fun k => (tab p (fun j => if (j <? k) && nz j then finf o else nth j kkt (f0 o)), count nz k)).
  assert (E0 : (kkt, 0) = st 0).
  { unfold st. f_equal. rewrite <- (tab_nth kkt (f0 o)) at 1. rewrite HL. apply tab_ext. intros. reflexivity. }
  rewrite E0. rewrite (foldM_seq _ st p 0).
  - unfold st. cbn [Nat.add]. f_equal. f_equal. apply tab_ext. intros i Hi. rewrite (proj2 (Nat.ltb_lt _ _)) by auto. reflexivity.
  - intros i Hi. cbn [Nat.add] in Hi. rewrite HT by lia. cbn [bind]. unfold st. rewrite count_S. destruct (nz i) eqn:E.
    + cbn [fst snd]. rewrite vset_tab by lia. cbn [bind]. f_equal. f_equal. apply tab_ext. intros j Hj.
      destruct (Nat.eqb_spec j i) as [->|Hne]; [|destruct (Nat.ltb_spec j i), (Nat.ltb_spec j (1 + i)); try lia; auto].
      rewrite (proj2 (Nat.ltb_lt i (1 + i))) by lia. rewrite E. auto.
    + f_equal. f_equal. apply tab_ext. intros j Hj. destruct (Nat.eqb_spec j i) as [->|Hne].
      * rewrite E, !andb_false_r. auto.
      * destruct (Nat.ltb_spec j i), (Nat.ltb_spec j (1 + i)); try lia; auto.
Qed.
Definition nzv (w : list F) (j : nat) : bool := negb (feq o (nth j w (f0 o)) (f0 o)).
Definition nzm (W : mat F) (j : nat) : bool := any_nonzero o (nth j (mrows W) []).
Lemma mark_nonzero_eq w kkt : length kkt = length w -> mark_nonzero o w kkt = Ret (marked (nzv w) (length w) kkt, count (nzv w) (length w)).
Proof.
  intros HL. rewrite <- (mark_loop (fun j => wj <- vget w j ;; Ret (negb (feq o wj (f0 o))))); auto.
  - unfold mark_nonzero. apply foldM_ext. intros s j Hj. apply in_seq in Hj. rewrite bind_assoc. apply bind_eq; auto.
  - intros j Hj. rewrite (vget_nth _ _ (f0 o)) by auto. reflexivity.
Qed.
Lemma mark_nonzero_mt_eq W kkt p T : shaped p T W -> length kkt = p -> mark_nonzero_mt o W kkt = Ret (marked (nzm W) p kkt, count (nzm W) p).
Proof.
  intros (H1 & H2 & [H3 H4]) HL. rewrite <- (mark_loop (fun j => Wj <- mrow W j ;; Ret (any_nonzero o Wj))); auto.
  - unfold mark_nonzero_mt. rewrite H1. apply foldM_ext. intros s j Hj. apply in_seq in Hj. rewrite bind_assoc. apply bind_eq; auto.
  - intros j Hj. unfold mrow. rewrite (vget_nth _ _ []) by lia. reflexivity.
Qed.
(** the working set both solvers compute once the marking is known *)
Definition select (nz : nat -> bool) (p : nat) (kkt : list F) (ws0 : nat) : res (list nat * nat) :=
  let size := Nat.max ws0 (Nat.min (2 * count nz p) p) in
  s <- argsort_desc o srt (marked nz p kkt) ;;
  let ws := firstn size s in
  if length ws =? size then Ret (ws, size) else Panic PUnwrap.
Lemma construct_ws_select w kkt ws0 : length kkt = length w ->
  construct_ws_from_kkt o srt kkt w ws0 = select (nzv w) (length w) kkt ws0.
Proof. intros H. unfold construct_ws_from_kkt. rewrite mark_nonzero_eq by auto. reflexivity. Qed.
Lemma construct_ws_mt_select W kkt ws0 p T : shaped p T W -> length kkt = p ->
  construct_ws_from_kkt_mt o srt kkt W ws0 = select (nzm W) p kkt ws0.
Proof. intros H HL. unfold construct_ws_from_kkt_mt. rewrite (mark_nonzero_mt_eq W kkt p T) by auto. destruct H as (-> & _). reflexivity. Qed.

Lemma NoDup_firstn {A} k : forall l : list A, NoDup l -> NoDup (firstn k l).
Proof.
  induction k; intros [|a l] H; simpl; try constructor; inversion H; subst; auto. intros Hin.
  assert (In a l) by (rewrite <- (firstn_skipn k l); apply in_or_app; auto). tauto.
Qed.
Lemma count_le nz p : count nz p <= p.
Proof. induction p; [reflexivity|]. rewrite count_S. destruct (nz p); lia. Qed.
(** what a working set must be *)
Definition ws_ok (p : nat) (ws : list nat) : Prop := NoDup ws /\ forall j, In j ws -> j < p.
Lemma select_ok (LF : float_laws o) nz p kkt ws0 : valid_sort o srt -> ws0 <= p ->
  (forall j, j < p -> nz j = false -> fisnan o (nth j kkt (f0 o)) = false) ->
  exists ws, select nz p kkt ws0 = Ret (ws, length ws) /\ ws_ok p ws /\
    length ws = Nat.max ws0 (Nat.min (2 * count nz p) p) /\
    forall j k, In j ws -> k < p -> ~ In k ws ->
      flt o (if nz j then finf o else nth j kkt (f0 o)) (if nz k then finf o else nth k kkt (f0 o)) = false.
Proof.
  intros VS Hws0 HN. unfold select. set (size := Nat.max ws0 (Nat.min (2 * count nz p) p)). set (m := marked nz p kkt).
  assert (Hm : length m = p) by apply tab_length.
  assert (HNm : existsb (fisnan o) m = false).
  { unfold m, marked. rewrite existsb_tab. apply not_true_is_false. intros E. apply existsb_exists in E as (j & Hj & E). apply in_seq in Hj.
    destruct (nz j) eqn:Ej; [rewrite (law_naninf o LF) in E|rewrite HN in E by (auto; lia)]; discriminate. }
  unfold argsort_desc. rewrite HNm, andb_false_r. cbn [bind]. destruct (VS m HNm) as [PS OS]. rewrite Hm in PS, OS.
  assert (Hsl : length (srt m) = p) by (rewrite (Permutation_length PS), seq_length; auto).
  assert (HL : length (firstn size (srt m)) = size) by (rewrite firstn_length, Hsl; unfold size; lia).
  exists (firstn size (srt m)). rewrite HL, Nat.eqb_refl. split; [reflexivity|].
  assert (ND : NoDup (srt m)) by (apply (Permutation_NoDup (Permutation_sym PS)), seq_NoDup).
  assert (IN : forall j, In j (srt m) <-> j < p).
  { intros j. split; intros H.
    - apply (Permutation_in _ PS) in H. apply in_seq in H. lia.
    - apply (Permutation_in _ (Permutation_sym PS)). apply in_seq. lia. }
  assert (IF : forall j, In j (firstn size (srt m)) -> In j (srt m)).
  { intros j Hj. rewrite <- (firstn_skipn size (srt m)). apply in_or_app. auto. }
  split; [split|].
  - apply NoDup_firstn. exact ND.
  - intros j Hj. apply IN. auto.
  - split; [reflexivity|]. intros j k Hj Hk Hnk.
    assert (Hk' : In k (skipn size (srt m))).
    { apply IN in Hk. rewrite <- (firstn_skipn size (srt m)) in Hk. apply in_app_or in Hk as [|]; tauto. }
    assert (Hj' := IF _ Hj). apply IN in Hj'.
    apply (In_nth _ _ 0) in Hj as (a & Ha & Ea). apply (In_nth _ _ 0) in Hk' as (b & Hb & Eb).
    rewrite HL in Ha. rewrite skipn_length, Hsl in Hb.
    assert (Ea' : nth a (srt m) 0 = j).
    { rewrite <- Ea. rewrite <- (firstn_skipn size (srt m)) at 1. rewrite app_nth1; auto. rewrite HL. auto. }
    assert (Eb' : nth (size + b) (srt m) 0 = k).
    { rewrite <- Eb. rewrite <- (firstn_skipn size (srt m)) at 1. rewrite app_nth2 by (rewrite HL; lia). f_equal. rewrite HL. lia. }
    apply (OS a (size + b)); [lia| |].
    + rewrite Ea'. unfold m, marked. apply nth_error_tab. auto.
    + rewrite Eb'. unfold m, marked. apply nth_error_tab. auto.
Qed.
(** every nonzero coefficient is selected, provided scores of zero ones are below infinity *)
Lemma select_nonzero (LF : float_laws o) nz p kkt ws0 ws size : valid_sort o srt -> ws0 <= p ->
  (forall j, j < p -> nz j = false -> fisnan o (nth j kkt (f0 o)) = false) ->
  (forall j, j < p -> nz j = false -> flt o (nth j kkt (f0 o)) (finf o) = true) ->
  select nz p kkt ws0 = Ret (ws, size) -> forall k, k < p -> nz k = true -> In k ws.
Proof.
  intros VS H0 HN HI E k Hk Hnz. destruct (select_ok LF nz p kkt ws0 VS H0 HN) as (ws' & E' & (ND & IN) & HL & HO).
  rewrite E in E'. injection E' as -> _. rename ws' into ws''. destruct (in_dec Nat.eq_dec k ws'') as [|Hn]; auto. exfalso.
  assert (A : forall j, In j ws'' -> nz j = true).
  { intros j Hj. destruct (nz j) eqn:Ej; auto. specialize (HO j k Hj Hk Hn). rewrite Ej, Hnz in HO. rewrite HI in HO by auto. discriminate. }
  assert (B : incl (k :: ws'') (filter nz (seq 0 p))).
  { intros x [<-|Hx]; apply filter_In; split; auto; apply in_seq; [lia|specialize (IN x Hx); lia]. }
  assert (C : length (k :: ws'') <= length (filter nz (seq 0 p))) by (apply NoDup_incl_length; [constructor; auto|exact B]).
  fold (count nz p) in C. simpl in C.
  assert (D : count nz p <= p) by apply count_le.
  lia.
Qed.
End WS.

(** *** single-task solver *)
Section CD.
Context {F DM D P : Type} (o : FOps F) (LF : float_laws o)
        (dm : DesignMatrix F DM) (df : Datafit F DM D) (pen : Penalty F P) (srt : list F -> list nat) (VS : valid_sort o srt).
Variables (n p : nat) (ds : dataset DM F) (p_ : P).
Hypotheses (HD : dm_sh dm (design_matrix ds) n p) (HP : pen_sh o pen p_) (Hns : n_samples (dtargets ds) = n).

Lemma t_ocv d w Xw ws : df_good df d ds n p -> length w = p -> length Xw = n -> (forall j, In j ws -> j < p) ->
  exists s m, opt_cond_violation df pen ds w Xw ws d p_ = Ret (s, m) /\ length s = length ws /\
    forall k j x, nth_error ws k = Some j -> nth_error w j = Some x -> feq o x (f0 o) = true ->
      exists v, nth_error s k = Some v /\ fisnan o v = false.
Proof.
  intros (G1 & G2 & G3) Hw HX Hin. unfold opt_cond_violation, construct_grad.
  destruct (t_mapM (fun j => df_gradient_j df d ds Xw j) (fun _ => True) ws) as (g & Eg & _ & HL); [intros; apply G3; auto|].
  rewrite Eg. cbn [bind]. apply HP; auto. rewrite Hw. auto.
Qed.
Lemma t_store K c (m : mat F) w ws row : shaped (S K) c m -> row < S K -> length ws = c -> (forall j, In j ws -> j < length w) -> total (store_iterate m w ws row) (shaped (S K) c).
Proof.
  intros Hm Hr Hc Hin. unfold store_iterate. apply t_foldM; auto. intros s [i j] Hij Hs. cbn [fst snd].
  assert (A := in_combine_l _ _ _ _ Hij). assert (B := in_combine_r _ _ _ _ Hij). apply in_seq in A.
  eapply t_bind; [apply t_vget; auto|]. intros wj _. apply t_mset; auto. lia.
Qed.
Lemma t_scatter pt ws : (forall j, In j ws -> j < p) -> total (scatter o p pt ws) (fun l => length l = p).
Proof.
  intros Hin. unfold scatter. apply (t_foldM (fun l => length l = p)); [apply vzeros_length|]. intros s [x j] Hij Hs. cbn [fst snd].
  apply in_combine_r in Hij. apply t_vset; auto.
Qed.
Definition st_ok (st : list F * list F) := length (fst st) = p /\ length (snd st) = n.
Lemma t_step d st j : df_good df d ds n p -> st_ok st -> j < p -> total (cd_step o dm df pen ds d p_ st j) st_ok.
Proof.
  intros (G1 & G2 & G3) [H1 H2] Hj. destruct st as [w Xw]. cbn [fst snd] in *. unfold cd_step.
  eapply t_bind; [apply t_vget; lia|]. intros lip _. apply t_if; [apply t_ret; split; auto|].
  eapply t_bind; [apply t_vget; lia|]. intros old _. eapply t_bind; [apply G3; auto|]. intros g _. cbv zeta.
  eapply t_bind; [apply (t_vset w j _ p); auto|]. intros w' Hw'. apply t_if; [|apply t_ret; split; auto].
  eapply t_bind; [apply (sh_upd _ _ _ _ HD); auto|]. intros X' HX'. apply t_ret; split; auto.
Qed.
Definition accel_fine (acc : bool) (K width : nat) (epochs : list nat) : Prop :=
  acc = false \/ 1 <= K <= width \/ forall e, In e epochs -> e mod (S K) <> K.
Lemma t_accel d m w Xw ws e K v : df_good df d ds n p -> length w = p -> length Xw = n -> (forall j, In j ws -> j < p) ->
  shaped (S K) (length ws) m -> (1 <= K <= length ws \/ e mod (S K) <> K) ->
  total (anderson_accel o dm df pen ds d p_ m w Xw ws e K v) (fun r => st_ok (fst r) /\ shaped (S K) (length ws) (snd r)).
Proof.
  intros G Hw HX Hin Hm HK. destruct G as (G1 & G2 & G3). unfold anderson_accel. rewrite (sh_nf _ _ _ _ HD), Hns. cbn [bind].
  eapply t_bind; [apply (t_store K (length ws)); auto; [apply Nat.mod_upper_bound; lia|rewrite Hw; auto]|].
  intros m' Hm'. destruct (Nat.eqb_spec (e mod S K) K) as [E|E]; [|apply t_ret; split; [split|]; auto].
  destruct HK as [HK|]; [|lia]. eapply t_bind; [apply t_anderson; eauto|].
  intros [pt|] Hpt; [|apply t_ret; split; [split|]; auto]. eapply t_bind; [apply t_scatter; auto|]. intros wa Hwa.
  eapply t_bind; [apply (sh_ext _ _ _ _ HD); auto|]. intros Xa HXa. eapply t_bind; [apply G2; auto|]. intros v1 _. cbv zeta.
  eapply t_bind; [apply G2; auto|]. intros v2 _. apply t_if; apply t_ret; (split; [split|]; auto).
Qed.
Lemma t_inner d tol kmax K acc v ws es : df_good df d ds n p -> (forall j, In j ws -> j < p) -> accel_fine acc K (length ws) es ->
  forall w Xw m, length w = p -> length Xw = n -> shaped (S K) (length ws) m ->
  total (inner_loop o dm df pen ds d p_ p tol kmax K acc v ws (length ws) es w Xw m) st_ok.
Proof.
  intros G Hin. induction es as [|e es IH]; intros HA w Xw m Hw HX Hm; cbn [inner_loop]; [apply t_ret; split; auto|].
  eapply t_bind; [apply (t_foldM st_ok); [split; auto|]; intros s j Hj Hs; apply t_step; auto|].
  intros [w1 X1] [H1 H2]. cbn [fst snd] in *.
  eapply t_bind with (fun r => st_ok (fst r) /\ shaped (S K) (length ws) (snd r)).
  { destruct acc; [|apply t_ret; split; [split|]; auto]. apply t_accel; auto.
    destruct HA as [HA|[HA|HA]]; [discriminate|left; auto|right; apply HA; left; auto]. }
  intros [[w2 X2] m2] [[H3 H4] H5]. cbn [fst snd] in *. cbv zeta.
  assert (HC : total (inner_loop o dm df pen ds d p_ p tol kmax K acc v ws (length ws) es w2 X2 m2) st_ok).
  { apply IH; auto. destruct HA as [HA|[HA|HA]]; [left; auto|right; left; auto|right; right; intros; apply HA; right; auto]. }
  apply t_if; auto. assert (G' := G). destruct G' as (G1 & G2 & G3). eapply t_bind; [apply G2; auto|]. intros val _.
  destruct (t_ocv d w2 X2 ws) as (s & mx & Es & _ & _); auto. rewrite Es. cbn [bind].
  apply t_if; apply t_if; auto; apply t_ret; split; auto.
Qed.
Lemma t_outer d tol K acc v ws0 me : df_good df d ds n p -> ws0 <= p ->
  (acc = false \/ 1 <= K <= ws0 \/ me <= K) ->
  forall it w Xw, length w = p -> length Xw = n ->
  total (outer_loop o dm df pen srt ds d p_ p ws0 me tol K acc v it w Xw) (fun w => length w = p).
Proof.
  intros G H0 HA. induction it as [|it IH]; intros w Xw Hw HX; cbn [outer_loop]; [apply t_ret; auto|].
  destruct (t_ocv d w Xw (seq 0 p)) as (s & mx & Es & HL & HN); auto; [intros j Hj; apply in_seq in Hj; lia|].
  rewrite seq_length in HL. rewrite Es. cbn [bind]. apply t_if; [apply t_ret; auto|].
  rewrite construct_ws_select by lia. rewrite Hw.
  destruct (select_ok o srt LF (nzv o w) p s ws0) as (ws & Ews & (_ & Hin) & HLw & _); auto.
  { intros j Hj E. unfold nzv in E. apply negb_false_iff in E. destruct (HN j j (nth j w (f0 o))) as (x & Ex & Hx).
    - rewrite (nth_error_nth' _ 0) by (rewrite seq_length; auto). rewrite seq_nth; auto.
    - apply nth_error_nth'. lia.
    - auto.
    - rewrite (nth_error_nth _ _ _ Ex). auto. }
  rewrite Ews. cbn [bind]. eapply t_bind; [apply t_inner; auto; [|apply mzeros_shaped]|].
  - destruct HA as [HA|[HA|HA]]; [left; auto|right; left; lia|right; right]. intros e He. apply in_seq in He. rewrite Nat.mod_small by lia. lia.
  - intros [w' X'] [H1 H2]. cbn [fst snd] in *. apply IH; auto.
Qed.
Lemma cd_total d ws0 it me tol K acc v : total (df_initialize df d ds) (fun d' => df_good df d' ds n p) ->
  accel_safe acc K (Nat.min ws0 p) me ->
  total (coordinate_descent o dm df pen srt ds d p_ ws0 it me tol K acc v) (fun w => length w = p).
Proof.
  intros HI HA. unfold coordinate_descent. rewrite (sh_nf _ _ _ _ HD), Hns. cbn [bind]. eapply t_bind; [exact HI|]. intros d' G.
  apply t_outer; auto; try apply vzeros_length.
  - destruct (Nat.ltb_spec p ws0); lia.
  - destruct HA as [HA|[HA|HA]]; auto. right; left. destruct (Nat.ltb_spec p ws0); lia.
Qed.

(** too small a working set: the first extrapolation reads out of bounds *)
Lemma inner_panics d tol kmax K v ws epochs : df_good df d ds n p -> (forall j, In j ws -> j < p) -> length ws < K -> K <= 10 ->
  forall es e0 w Xw m, es = seq e0 epochs -> e0 <= K < e0 + epochs -> length w = p -> length Xw = n -> shaped (S K) (length ws) m ->
  inner_loop o dm df pen ds d p_ p tol kmax K true v ws (length ws) es w Xw m = Panic POob.
Proof.
  intros G Hin HK H10. induction epochs as [|epochs IH]; intros es e0 w Xw m -> He Hw HX Hm; [lia|].
  cbn [seq inner_loop].
  destruct (t_foldM st_ok (cd_step o dm df pen ds d p_) ws (w, Xw)) as ([w1 X1] & E1 & [H1 H2]); [split; auto|intros s j Hj Hs; apply t_step; auto|].
  rewrite E1. cbn [bind fst snd] in *. destruct (Nat.eq_dec e0 K) as [->|Hne].
  - unfold anderson_accel. rewrite (sh_nf _ _ _ _ HD). cbn [bind]. rewrite Nat.mod_small by lia.
    destruct (t_store K (length ws) m w1 ws K) as (m' & -> & Hm'); auto; [rewrite H1; auto|]. cbn [bind]. rewrite Nat.eqb_refl.
    rewrite (anderson_oob o m' K (length ws)) by auto. reflexivity.
  - destruct (t_accel d m w1 X1 ws e0 K v) as ([[w2 X2] m2] & E2 & [H3 H4] & H5); auto; [right; rewrite Nat.mod_small; lia|].
    rewrite E2. cbn [bind fst snd] in *. replace ((0 <? e0) && (e0 mod 10 =? 0)) with false.
    + apply (IH (seq (S e0) epochs) (S e0)); auto. lia.
    + rewrite Nat.mod_small by lia. destruct e0; auto.
Qed.
Lemma cd_panics d d' ws0 it me tol K v : df_initialize df d ds = Ret d' -> df_good df d' ds n p ->
  Nat.min ws0 p < K -> K <= 10 -> K < me -> 1 <= it ->
  (forall s m, opt_cond_violation df pen ds (vzeros o p) (vzeros o n) (seq 0 p) d' p_ = Ret (s, m) -> fle o m tol = false) ->
  coordinate_descent o dm df pen srt ds d p_ ws0 it me tol K true v = Panic POob.
Proof.
  intros HI G HK H10 Hme Hit HV. unfold coordinate_descent. rewrite (sh_nf _ _ _ _ HD), Hns. cbn [bind]. rewrite HI. cbn [bind].
  destruct it as [|it]; [lia|]. cbn [outer_loop]. assert (L1 := vzeros_length o p). assert (L2 := vzeros_length o n).
  destruct (t_ocv d' (vzeros o p) (vzeros o n) (seq 0 p)) as (s & mx & Es & HL & HN); auto; [intros j Hj; apply in_seq in Hj; lia|].
  rewrite seq_length in HL. rewrite Es. cbn [bind]. rewrite (HV _ _ Es).
  rewrite construct_ws_select by lia. rewrite L1.
  assert (Z : forall j, j < p -> nzv o (vzeros o p) j = false).
  { intros j Hj. unfold nzv, vzeros. rewrite nth_repeat, (law_eq0 o LF). reflexivity. }
  set (ws0' := if p <? ws0 then p else ws0).
  destruct (select_ok o srt LF (nzv o (vzeros o p)) p s ws0') as (ws & Ews & (_ & Hin) & HLw & _); auto.
  { unfold ws0'. destruct (Nat.ltb_spec p ws0); lia. }
  { intros j Hj E. destruct (HN j j (f0 o)) as (x & Ex & Hx).
    - rewrite (nth_error_nth' _ 0) by (rewrite seq_length; auto). rewrite seq_nth; auto.
    - unfold vzeros. rewrite repeat_tab, nth_error_tab by auto. reflexivity.
    - apply LF.
    - rewrite (nth_error_nth _ _ _ Ex). auto. }
  rewrite Ews. cbn [bind]. assert (C : count (nzv o (vzeros o p)) p = 0).
  { unfold count. replace (filter (nzv o (vzeros o p)) (seq 0 p)) with (@nil nat); auto. symmetry.
    assert (forall l, (forall j, In j l -> j < p) -> filter (nzv o (vzeros o p)) l = []) as A.
    { induction l as [|a l IHl]; intros Hl; simpl; auto. rewrite Z by (apply Hl; left; auto). apply IHl. intros; apply Hl; right; auto. }
    apply A. intros j Hj. apply in_seq in Hj. lia. }
  rewrite C in HLw. assert (HW : length ws < K) by (rewrite HLw; unfold ws0'; destruct (Nat.ltb_spec p ws0); lia).
  rewrite (inner_panics d' tol mx K v ws me G Hin HW H10 (seq 0 me) 0) ; auto; [lia|apply mzeros_shaped].
Qed.
End CD.

(** *** multi-task solver *)
Section BCD.
Context {F DM D P : Type} (o : FOps F) (LF : float_laws o)
        (dm : DesignMatrix F DM) (df : DatafitMT F DM D) (pen : PenaltyMT F P) (srt : list F -> list nat) (VS : valid_sort o srt).
Variables (n p T : nat) (ds : dataset DM F) (p_ : P).
Hypotheses (HD : dm_sh dm (design_matrix ds) n p) (HP : bpen_sh o T pen p_) (Hns : n_samples (dtargets ds) = n) (Hnt : n_tasks (dtargets ds) = T).

Lemma t_ocv_mt d W XW ws : dfm_good df d ds n p T -> shaped p T W -> shaped n T XW -> (forall j, In j ws -> j < p) ->
  exists s m, opt_cond_violation_mt df pen ds W XW ws d p_ = Ret (s, m) /\ length s = length ws /\
    forall k j x, nth_error ws k = Some j -> nth_error (mrows W) j = Some x -> any_nonzero o x = false ->
      exists v, nth_error s k = Some v /\ fisnan o v = false.
Proof.
  intros (G1 & G2 & G3) Hw HX Hin. unfold opt_cond_violation_mt, construct_grad_mt.
  destruct (t_mapM (fun j => dfm_gradient_j df d ds XW j) (fun g => length g = T) ws) as (g & Eg & HF & HL); [intros; apply G3; auto|].
  rewrite Eg. cbn [bind]. rewrite Hnt, reshape_concat by auto. cbn [bind]. apply (proj2 HP) with p; auto.
  split; [reflexivity|]. split; [reflexivity|]. split; auto.
Qed.
Lemma t_rows (W : mat F) ws : shaped p T W -> (forall j, In j ws -> j < p) -> total (mapM (fun j => mrow W j) ws) (fun rs => length (concat rs) = length ws * T).
Proof.
  intros HW Hin. eapply t_conseq; [apply (t_mapM _ (fun r => length r = T)); intros j Hj; apply (t_mrow p T); auto|].
  intros rs [HF HL]. cbv beta. rewrite <- HL. apply concat_length_const. auto.
Qed.
Lemma t_store_mt K (m : mat F) W ws row : shaped (S K) (length ws * T) m -> row < S K -> shaped p T W -> (forall j, In j ws -> j < p) -> total (store_iterate_mt m W ws row) (shaped (S K) (length ws * T)).
Proof.
  intros Hm Hr HW Hin. unfold store_iterate_mt. eapply t_bind; [apply t_rows; auto|]. intros rs Hrs. cbv beta in Hrs. apply t_mset_row; auto.
Qed.
Lemma t_scatter_mt pt ws : (forall j, In j ws -> j < p) -> length pt = length ws * T -> total (scatter_mt o p T pt ws) (shaped p T).
Proof.
  intros Hin HL. unfold scatter_mt. eapply t_bind; [apply reshape_shaped; auto|]. intros m (M1 & M2 & [M3 M4]).
  apply (t_foldM (shaped p T)); [apply mzeros_shaped|]. intros s [r j] Hij Hs. cbn [fst snd].
  rewrite Forall_forall in M4. assert (A := in_combine_l _ _ _ _ Hij). apply in_combine_r in Hij.
  apply t_mset_row; auto. rewrite (M4 r A). auto.
Qed.
Definition stm_ok (st : mat F * mat F) := shaped p T (fst st) /\ shaped n T (snd st).
Lemma t_step_mt d st j : dfm_good df d ds n p T -> stm_ok st -> j < p -> total (bcd_step o dm df pen ds d p_ st j) stm_ok.
Proof.
  intros (G1 & G2 & G3) [H1 H2] Hj. destruct st as [W XW]. cbn [fst snd] in *. unfold bcd_step. rewrite Hnt.
  eapply t_bind; [apply t_vget; lia|]. intros lip _. apply t_if; [apply t_ret; split; auto|].
  eapply t_bind; [apply (t_mrow p T); auto|]. intros old Hold. cbv beta in Hold. eapply t_bind; [apply G3; auto|]. intros g Hg. cbv beta in Hg.
  eapply t_bind; [apply (t_vbin _ _ _ T); auto; rewrite map_length; auto|]. intros step Hstep. cbv beta in Hstep. cbv zeta.
  assert (HU := proj1 HP step (fdiv o (f1 o) lip) Hstep).
  eapply t_bind; [apply (t_foldM (shaped p T)); auto|].
  { intros s t Ht Hs. apply in_seq in Ht. eapply t_bind; [apply t_vget; lia|]. intros u _. apply t_mset; auto; lia. }
  intros W' HW'. eapply t_bind; [apply (t_mapM _ (fun _ => True))|].
  { intros [t x] Htx. cbn [fst snd]. apply in_combine_l, in_seq in Htx. eapply t_bind; [apply (t_mget p T); auto; lia|]. intros; apply t_ret; auto. }
  intros diff [_ Hdiff]. rewrite combine_length, seq_length in Hdiff. apply t_if; [|apply t_ret; split; auto].
  eapply t_bind; [apply (sh_upd_mt _ _ _ _ HD T); auto; lia|]. intros X' HX'. apply t_ret; split; auto.
Qed.
Lemma t_accel_mt d m W XW ws e K v : dfm_good df d ds n p T -> shaped p T W -> shaped n T XW -> (forall j, In j ws -> j < p) ->
  shaped (S K) (length ws * T) m -> (1 <= K <= length ws * T \/ e mod (S K) <> K) ->
  total (anderson_accel_mt o dm df pen ds W XW d p_ ws m e K v) (fun r => stm_ok (fst r) /\ shaped (S K) (length ws * T) (snd r)).
Proof.
  intros G Hw HX Hin Hm HK. destruct G as (G1 & G2 & G3). unfold anderson_accel_mt. rewrite (sh_nf _ _ _ _ HD), Hns, Hnt. cbn [bind]. cbv zeta.
  eapply t_bind; [apply (t_store_mt K); auto; apply Nat.mod_upper_bound; lia|].
  intros m' Hm'. destruct (Nat.eqb_spec (e mod S K) K) as [E|E]; [|apply t_ret; split; [split|]; auto].
  destruct HK as [HK|]; [|lia]. eapply t_bind; [apply t_anderson; eauto|].
  intros [pt|] Hpt; [|apply t_ret; split; [split|]; auto]. eapply t_bind; [apply t_scatter_mt; auto|]. intros wa Hwa.
  eapply t_bind; [apply (sh_ext_mt _ _ _ _ HD T); auto|]. intros Xa HXa. eapply t_bind; [apply G2; auto|]. intros v1 _.
  eapply t_bind; [apply G2; auto|]. intros v2 _. apply t_if; apply t_ret; (split; [split|]; auto).
Qed.
Lemma t_inner_mt d tol kmax K acc v ws es : dfm_good df d ds n p T -> (forall j, In j ws -> j < p) -> accel_fine acc K (length ws * T) es ->
  forall W XW m, shaped p T W -> shaped n T XW -> shaped (S K) (length ws * T) m ->
  total (inner_loop_mt o dm df pen ds d p_ p tol kmax K acc v ws (length ws) es W XW m) stm_ok.
Proof.
  intros G Hin. induction es as [|e es IH]; intros HA w Xw m Hw HX Hm; cbn [inner_loop_mt]; [apply t_ret; split; auto|].
  eapply t_bind; [apply (t_foldM stm_ok); [split; auto|]; intros s j Hj Hs; apply t_step_mt; auto|].
  intros [w1 X1] [H1 H2]. cbn [fst snd] in *.
  eapply t_bind with (fun r => stm_ok (fst r) /\ shaped (S K) (length ws * T) (snd r)).
  { destruct acc; [|apply t_ret; split; [split|]; auto]. apply t_accel_mt; auto.
    destruct HA as [HA|[HA|HA]]; [discriminate|left; auto|right; apply HA; left; auto]. }
  intros [[w2 X2] m2] [[H3 H4] H5]. cbn [fst snd] in *. cbv zeta.
  assert (HC : total (inner_loop_mt o dm df pen ds d p_ p tol kmax K acc v ws (length ws) es w2 X2 m2) stm_ok).
  { apply IH; auto. destruct HA as [HA|[HA|HA]]; [left; auto|right; left; auto|right; right; intros; apply HA; right; auto]. }
  apply t_if; auto. assert (G' := G). destruct G' as (G1 & G2 & G3). eapply t_bind; [apply G2; auto|]. intros val _.
  destruct (t_ocv_mt d w2 X2 ws) as (s & mx & Es & _ & _); auto. rewrite Es. cbn [bind].
  apply t_if; apply t_if; auto; apply t_ret; split; auto.
Qed.
Lemma select_mt_ok d W XW ws0 : dfm_good df d ds n p T -> shaped p T W -> shaped n T XW -> ws0 <= p ->
  exists s m ws, opt_cond_violation_mt df pen ds W XW (seq 0 p) d p_ = Ret (s, m) /\
    construct_ws_from_kkt_mt o srt s W ws0 = Ret (ws, length ws) /\ (forall j, In j ws -> j < p) /\
    length ws = Nat.max ws0 (Nat.min (2 * count (nzm o W) p) p).
Proof.
  intros G Hw HX H0. destruct (t_ocv_mt d W XW (seq 0 p)) as (s & mx & Es & HL & HN); auto; [intros j Hj; apply in_seq in Hj; lia|].
  rewrite seq_length in HL. exists s, mx. rewrite (construct_ws_mt_select o srt W s ws0 p T) by auto.
  destruct (select_ok o srt LF (nzm o W) p s ws0) as (ws & Ews & (_ & Hin) & HLw & _); auto.
  { intros j Hj E. unfold nzm in E. destruct (HN j j (nth j (mrows W) [])) as (x & Ex & Hx).
    - rewrite (nth_error_nth' _ 0) by (rewrite seq_length; auto). rewrite seq_nth; auto.
    - apply nth_error_nth'. destruct Hw as (H1 & H2 & [H3 H4]). lia.
    - auto.
    - rewrite (nth_error_nth _ _ _ Ex). auto. }
  exists ws. auto.
Qed.
Lemma t_outer_mt d tol K acc v ws0 me : dfm_good df d ds n p T -> ws0 <= p ->
  (acc = false \/ 1 <= K <= ws0 * T \/ me <= K) ->
  forall it W XW, shaped p T W -> shaped n T XW ->
  total (outer_loop_mt o dm df pen srt ds d p_ p ws0 me tol K acc v it W XW) (shaped p T).
Proof.
  intros G H0 HA. induction it as [|it IH]; intros w Xw Hw HX; cbn [outer_loop_mt]; [apply t_ret; auto|].
  destruct (select_mt_ok d w Xw ws0) as (s & mx & ws & Es & Ews & Hin & HLw); auto.
  rewrite Es. cbn [bind]. apply t_if; [apply t_ret; auto|].
  rewrite Ews. cbn [bind]. rewrite Hnt. eapply t_bind; [apply t_inner_mt; auto; [|apply mzeros_shaped]|].
  - destruct HA as [HA|[HA|HA]]; [left; auto|right; left; nia|right; right]. intros e He. apply in_seq in He. rewrite Nat.mod_small by lia. lia.
  - intros [w' X'] [H1 H2]. cbn [fst snd] in *. apply IH; auto.
Qed.
Lemma bcd_total d ws0 it me tol K acc v : total (dfm_initialize df d ds) (fun d' => dfm_good df d' ds n p T) ->
  accel_safe acc K (Nat.min ws0 p * T) me ->
  total (block_coordinate_descent o dm df pen srt ds d p_ ws0 it me tol K acc v) (shaped p T).
Proof.
  intros HI HA. unfold block_coordinate_descent. rewrite (sh_nf _ _ _ _ HD), Hns, Hnt. cbn [bind]. eapply t_bind; [exact HI|]. intros d' G.
  apply t_outer_mt; auto; try apply mzeros_shaped.
  - destruct (Nat.ltb_spec p ws0); lia.
  - destruct HA as [HA|[HA|HA]]; auto. right; left. destruct (Nat.ltb_spec p ws0).
    + rewrite Nat.min_r in HA by lia. auto.
    + rewrite Nat.min_l in HA by lia. auto.
Qed.
Lemma inner_panics_mt d tol kmax K v ws epochs : dfm_good df d ds n p T -> (forall j, In j ws -> j < p) -> length ws * T < K -> K <= 10 ->
  forall es e0 W XW m, es = seq e0 epochs -> e0 <= K < e0 + epochs -> shaped p T W -> shaped n T XW -> shaped (S K) (length ws * T) m ->
  inner_loop_mt o dm df pen ds d p_ p tol kmax K true v ws (length ws) es W XW m = Panic POob.
Proof.
  intros G Hin HK H10. induction epochs as [|epochs IH]; intros es e0 w Xw m -> He Hw HX Hm; [lia|].
  cbn [seq inner_loop_mt].
  destruct (t_foldM stm_ok (bcd_step o dm df pen ds d p_) ws (w, Xw)) as ([w1 X1] & E1 & [H1 H2]); [split; auto|intros s j Hj Hs; apply t_step_mt; auto|].
  rewrite E1. cbn [bind fst snd] in *. destruct (Nat.eq_dec e0 K) as [->|Hne].
  - unfold anderson_accel_mt. rewrite (sh_nf _ _ _ _ HD), Hnt. cbn [bind]. rewrite Nat.mod_small by lia.
    destruct (t_store_mt K m w1 ws K) as (m' & -> & Hm'); auto. cbn [bind]. rewrite Nat.eqb_refl.
    rewrite (anderson_oob o m' K (length ws * T)) by auto. reflexivity.
  - destruct (t_accel_mt d m w1 X1 ws e0 K v) as ([[w2 X2] m2] & E2 & [H3 H4] & H5); auto; [right; rewrite Nat.mod_small; lia|].
    rewrite E2. cbn [bind fst snd] in *. replace ((0 <? e0) && (e0 mod 10 =? 0)) with false.
    + apply (IH (seq (S e0) epochs) (S e0)); auto. lia.
    + rewrite Nat.mod_small by lia. destruct e0; auto.
Qed.
Lemma bcd_panics d d' ws0 it me tol K v : dfm_initialize df d ds = Ret d' -> dfm_good df d' ds n p T ->
  Nat.min ws0 p * T < K -> K <= 10 -> K < me -> 1 <= it ->
  (forall s m, opt_cond_violation_mt df pen ds (mzeros o p T) (mzeros o n T) (seq 0 p) d' p_ = Ret (s, m) -> fle o m tol = false) ->
  block_coordinate_descent o dm df pen srt ds d p_ ws0 it me tol K true v = Panic POob.
Proof.
  intros HI G HK H10 Hme Hit HV. unfold block_coordinate_descent. rewrite (sh_nf _ _ _ _ HD), Hns, Hnt. cbn [bind]. rewrite HI. cbn [bind].
  destruct it as [|it]; [lia|]. cbn [outer_loop_mt]. assert (L1 := mzeros_shaped o p T). assert (L2 := mzeros_shaped o n T).
  set (ws0' := if p <? ws0 then p else ws0).
  destruct (select_mt_ok d' (mzeros o p T) (mzeros o n T) ws0') as (s & mx & ws & Es & Ews & Hin & HLw); auto.
  { unfold ws0'. destruct (Nat.ltb_spec p ws0); lia. }
  rewrite Es. cbn [bind]. rewrite (HV _ _ Es). rewrite Ews. cbn [bind].
  assert (C : count (nzm o (mzeros o p T)) p = 0).
  { unfold count. assert (Z : forall j, j < p -> nzm o (mzeros o p T) j = false).
    { intros j Hj. unfold nzm, mzeros, mfill. cbn [mrows]. rewrite repeat_tab, nth_tab by auto. unfold any_nonzero. rewrite repeat_tab, existsb_tab.
      apply not_true_is_false. intros E. apply existsb_exists in E as (x & _ & E). rewrite (law_eq0 o LF) in E. discriminate. }
    replace (filter (nzm o (mzeros o p T)) (seq 0 p)) with (@nil nat); auto. symmetry.
    assert (forall l, (forall j, In j l -> j < p) -> filter (nzm o (mzeros o p T)) l = []) as A.
    { induction l as [|a l IHl]; intros Hl; simpl; auto. rewrite Z by (apply Hl; left; auto). apply IHl. intros; apply Hl; right; auto. }
    apply A. intros j Hj. apply in_seq in Hj. lia. }
  rewrite C in HLw. assert (HW : length ws * T < K).
  { rewrite HLw. unfold ws0'. destruct (Nat.ltb_spec p ws0).
    - rewrite Nat.min_r in HK by lia. rewrite Nat.max_l by lia. auto.
    - rewrite Nat.min_l in HK by lia. rewrite Nat.max_l by lia. auto. }
  rewrite Hnt. rewrite (inner_panics_mt d' tol mx K v ws me G Hin HW H10 (seq 0 me) 0) ; auto; [lia|apply mzeros_shaped].
Qed.
End BCD.
