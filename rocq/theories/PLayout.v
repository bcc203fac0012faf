(** Sparse fits depend neither on the storage layout nor, without extrapolation, on the labels of the samples; any arithmetic. *)
From Coq Require Import List ZArith Bool Arith Lia.
From Verif Require Import Ops Arr MUtils MDatasets MDatafits MDatafitsMT MPenalties MBlockPenalties MCd MBcd MEstimators SpecSolve SpecLayout PBase PData PBisim.
Import ListNotations.

Lemma nth_ext_err {A} : forall l l' : list A, (forall i, nth_error l i = nth_error l' i) -> l = l'.
Proof.
  induction l as [|a l IH]; intros [|b l'] H; [reflexivity|discriminate (H 0)|discriminate (H 0)|]. pose proof (H 0) as H0. injection H0 as ->. f_equal. apply IH. intros i. exact (H (S i)).
Qed.
Section M.
Context {A : Type} (n : nat) (s : nat -> nat) (RL : relabels n s).
Lemma moved_getz (l l' : list A) i : moved n s l l' -> i < n -> vgetz l' (Z.of_nat (s i)) = vgetz l (Z.of_nat i).
Proof using. intros (L & L' & H) Hi. unfold vgetz. rewrite !(proj2 (Z.ltb_ge _ _)) by lia. rewrite !Nat2Z.id. unfold vget. rewrite H by exact Hi. reflexivity. Qed.
Lemma nth_error_upd (l : list A) : forall i k a, nth_error (upd l i a) k = if k =? i then (if i <? length l then Some a else None) else nth_error l k.
Proof using.
  induction l as [|x l IH]; intros i k a; cbn [upd].
  - destruct k, i; cbn; try reflexivity; destruct (k =? i); reflexivity.
  - destruct i, k; cbn [nth_error]; try reflexivity. rewrite IH. cbn [Nat.eqb length]. destruct (k =? i); [|reflexivity]. reflexivity.
Qed.
Lemma moved_upd (l l' : list A) i a : moved n s l l' -> i < n -> moved n s (upd l i a) (upd l' (s i) a).
Proof using RL.
  intros (L & L' & H) Hi. split; [rewrite upd_length; exact L|]. split; [rewrite upd_length; exact L'|]. intros k Hk. rewrite !nth_error_upd, L, L'. destruct RL as [R1 R2]. rewrite (H k Hk).
  rewrite (proj2 (Nat.ltb_lt _ _) Hi), (proj2 (Nat.ltb_lt _ _) (R1 i Hi)).
  destruct (k =? i) eqn:E; [apply Nat.eqb_eq in E; subst k; rewrite Nat.eqb_refl; reflexivity|]. destruct (s k =? s i) eqn:E'; [|reflexivity]. apply Nat.eqb_eq in E'. apply (R2 k i Hk Hi) in E'. apply Nat.eqb_neq in E. contradiction.
Qed.
Lemma moved_setz (l l' : list A) i a : moved n s l l' -> i < n -> rr (moved n s) (vsetz l (Z.of_nat i) a) (vsetz l' (Z.of_nat (s i)) a).
Proof using RL.
  intros M Hi. pose proof M as (L & L' & H). unfold vsetz, vset. rewrite !(proj2 (Z.ltb_ge _ _)) by lia. rewrite !Nat2Z.id, L, L'. rewrite (proj2 (Nat.ltb_lt _ _) Hi), (proj2 (Nat.ltb_lt _ _) (proj1 RL i Hi)). apply moved_upd; [|exact Hi]. exact M.
Qed.
Lemma moved_repeat (a : A) : moved n s (repeat a n) (repeat a n).
Proof using RL. split; [apply repeat_length|]. split; [apply repeat_length|]. intros i Hi. rewrite (nth_error_nth' _ a), (nth_error_nth' _ a), !nth_repeat by (rewrite repeat_length; auto; apply RL, Hi). reflexivity. Qed.
Lemma moved_same (l l' : list A) : (forall i, i < n -> s i = i) -> moved n s l l' -> l = l'.
Proof using.
  intros HS (L & L' & H). apply nth_ext_err. intros i. destruct (Nat.lt_ge_cases i n) as [Hi|Hi]; [rewrite <- (H i Hi), (HS i Hi); reflexivity|].
  rewrite !(proj2 (nth_error_None _ _)) by lia. reflexivity.
Qed.
End M.

Section L.
Context {F : Type} (o : FOps F) (n p : nat) (s : nat -> nat) (RL : relabels n s) (cs : nat -> list (nat * F)) (X X' : csc F).
Context (HX : holds n p cs X) (HX' : holds n p (relabelled s cs) X').
Definition Q (z z' : Z) : Prop := exists i x, i < n /\ vgetz (cindices X) z = Ret (Z.of_nat i) /\ vgetz (cdata X) z = Ret x /\ vgetz (cindices X') z' = Ret (Z.of_nat (s i)) /\ vgetz (cdata X') z' = Ret x.
Lemma held_range (c : csc F) (cc : nat -> list (nat * F)) j : holds n p cc c -> j < p -> exists zs, csc_range c j = Ret zs /\ Forall2 (fun z e => vgetz (cindices c) z = Ret (Z.of_nat (fst e)) /\ vgetz (cdata c) z = Ret (snd e)) zs (cc j).
Proof using.
  intros ST Hj. destruct (proj2 ST j Hj) as [(lo & H1 & H2 & H3) _]. unfold csc_range, vget. rewrite H1, H2. cbn [bind]. eexists. split; [reflexivity|].
  unfold zrange. replace (Z.to_nat (Z.of_nat (lo + length (cc j)) - Z.of_nat lo)) with (length (cc j)) by lia.
  apply Forall2_seq. intros k e Hk. destruct (H3 k e Hk) as [H4 H5]. unfold vgetz.
  rewrite (proj2 (Z.ltb_ge _ _)) by lia. replace (Z.to_nat (Z.of_nat lo + Z.of_nat (0 + k))) with (lo + k) by lia.
  unfold vget. rewrite H4, H5. auto.
Qed.
Lemma held_out (c : csc F) (cc : nat -> list (nat * F)) j : holds n p cc c -> p <= j -> csc_range c j = Panic POob.
Proof using.
  intros [L _] Hj. unfold csc_range. rewrite (vget_oob (cindptr c) (S j)) by lia. unfold vget. destruct (nth_error (cindptr c) j); reflexivity.
Qed.
Lemma range_rel j : rr (Forall2 Q) (csc_range X j) (csc_range X' j).
Proof using HX HX'.
  destruct (Nat.lt_ge_cases j p) as [Hj|Hj].
  - destruct (held_range X cs j HX Hj) as (zs & -> & F1). destruct (held_range X' _ j HX' Hj) as (zs' & -> & F2). cbn.
    assert (B : forall e, In e (cs j) -> fst e < n) by (apply (proj2 HX j Hj)). unfold relabelled in F2. clear - F1 F2 B. revert zs' F2. induction F1 as [|z e zs es H F1 IH]; intros zs' F2; cbn [map] in F2; inversion F2; subst; constructor.
    + exists (fst e), (snd e). split; [apply B; left; reflexivity|]. destruct H as [A1 A2]. match goal with K : _ /\ _ |- _ => destruct K as [A3 A4] end. cbn [fst snd] in *. auto.
    + apply IH; [|assumption]. intros e' He. apply B. right. exact He.
  - rewrite (held_out X cs j HX Hj), (held_out X' _ j HX' Hj). reflexivity.
Qed.
Lemma nf_rel : csc_n_features X = csc_n_features X'.
Proof using HX HX'. unfold csc_n_features. rewrite (proj1 HX), (proj1 HX'). reflexivity. Qed.
(** a loop over the stored entries of a column *)
Lemma col_loop {S S'} (R : S -> S' -> Prop) f f' j a a' : R a a' ->
  (forall a a' z z', R a a' -> Q z z' -> rr R (f a z) (f' a' z')) ->
  rr R (r <- csc_range X j ;; foldM f r a) (r <- csc_range X' j ;; foldM f' r a').
Proof using HX HX'. intros HR H. apply (rr_bind _ _ _ _ _ _ (range_rel j)). intros r r' HF. apply (rr_foldM Q); assumption. Qed.

Section One.
Context (y y' : list F) (HY : moved n s y y').
Lemma st_T1 (l : list F) : single_target (f0 o) (T1 l) = Ret l.
Proof using.
  unfold single_target, try_single_target, mcol, colv. cbn. rewrite map_map. cbn. f_equal. induction l; cbn; congruence.
Qed.
Lemma up_rel Xw Xw' a j : moved n s Xw Xw' -> rr (moved n s) (sparse_update o X Xw a j) (sparse_update o X' Xw' a j).
Proof using HX HX' RL.
  intros HR. unfold sparse_update. apply col_loop; [exact HR|]. intros b b' z z' HB HQ. destruct HQ as (i & x & Hi & Ei & Ex & Ei' & Ex'). rewrite ?Ei, ?Ex, ?Ei', ?Ex'; cbn [bind]; rewrite ?Ei, ?Ex, ?Ei', ?Ex'; cbn [bind]. rewrite (moved_getz n s b b' i HB Hi). destruct (vgetz b (Z.of_nat i)) as [v|]; [|reflexivity]. cbn [bind]. apply moved_setz; assumption.
Qed.
Lemma ex_rel ws w : rr (moved n s) (sparse_extrap o X ws w n) (sparse_extrap o X' ws w n).
Proof using HX HX' RL.
  unfold sparse_extrap. apply rr_foldM_same; [|apply moved_repeat, RL]. intros b b' j HB. apply col_loop; [exact HB|]. intros c c' z z' HC HQ. destruct HQ as (i & x & Hi & Ei & Ex & Ei' & Ex'). rewrite ?Ei, ?Ex, ?Ei', ?Ex'; cbn [bind]; rewrite ?Ei, ?Ex, ?Ei', ?Ex'; cbn [bind].
  destruct (vget w j) as [wj|]; [|reflexivity]. cbn [bind]. rewrite (moved_getz n s c c' i HC Hi). destruct (vgetz c (Z.of_nat i)) as [v|]; [|reflexivity]. cbn [bind]. apply moved_setz; assumption.
Qed.
Lemma quad_init_rel d0 d0' : df_initialize (quad_sparse o) d0 (Dataset X (T1 y)) = df_initialize (quad_sparse o) d0' (Dataset X' (T1 y')).
Proof using HX HX' HY.
  cbn [quad_sparse df_initialize]. unfold quad_sparse_initialize. cbn [design_matrix dtargets]. rewrite <- nf_rel. destruct (csc_n_features X) as [k|]; [|reflexivity]. cbn [bind]. rewrite !st_T1. cbn [bind]. cbn [n_samples]. rewrite (proj1 HY), (proj1 (proj2 HY)).
  erewrite mapM_same; [reflexivity|]. intros j _. cbv beta. apply rr_eq.
  change (rr eq (r <- csc_range X j ;; q <- foldM (fun acc idx => x <- vgetz (cdata X) idx ;; i <- vgetz (cindices X) idx ;; yi <- vgetz y i ;; Ret (fadd o (fst acc) (fmul o x x), fadd o (snd acc) (fmul o x yi))) r (f0 o, f0 o) ;; (let '(nrm2, xty) := q in Ret (fdiv o nrm2 (fcast o n), xty)))
    (r <- csc_range X' j ;; q <- foldM (fun acc idx => x <- vgetz (cdata X') idx ;; i <- vgetz (cindices X') idx ;; yi <- vgetz y' i ;; Ret (fadd o (fst acc) (fmul o x x), fadd o (snd acc) (fmul o x yi))) r (f0 o, f0 o) ;; (let '(nrm2, xty) := q in Ret (fdiv o nrm2 (fcast o n), xty)))).
  apply (rr_bind _ _ _ _ _ _ (range_rel j)). intros r r' HF. apply (rr_bind eq).
  - apply (rr_foldM Q); [exact HF| |reflexivity]. intros b b' z z' -> HQ. destruct HQ as (i & x & Hi & Ei & Ex & Ei' & Ex'). rewrite ?Ei, ?Ex, ?Ei', ?Ex'; cbn [bind]; rewrite ?Ei, ?Ex, ?Ei', ?Ex'; cbn [bind]. rewrite (moved_getz n s y y' i HY Hi). destruct (vgetz y (Z.of_nat i)); reflexivity.
  - intros q q' ->. destruct q' as [u v]. reflexivity.
Qed.
Lemma quad_grad_rel d Xw Xw' j : moved n s Xw Xw' -> df_gradient_j (quad_sparse o) d (Dataset X (T1 y)) Xw j = df_gradient_j (quad_sparse o) d (Dataset X' (T1 y')) Xw' j.
Proof using HX HX' HY.
  intros HR. cbn [quad_sparse df_gradient_j]. unfold quad_sparse_gradient_j. cbn [design_matrix dtargets n_samples]. rewrite (proj1 HY), (proj1 (proj2 HY)). apply rr_eq.
  apply (rr_bind _ _ _ _ _ _ (range_rel j)). intros r r' HF. apply (rr_bind eq).
  - apply (rr_foldM Q); [exact HF| |reflexivity]. intros b b' z z' -> HQ. destruct HQ as (i & x & Hi & Ei & Ex & Ei' & Ex'). rewrite ?Ei, ?Ex, ?Ei', ?Ex'; cbn [bind]; rewrite ?Ei, ?Ex, ?Ei', ?Ex'; cbn [bind]. rewrite (moved_getz n s Xw Xw' i HR Hi). destruct (vgetz Xw (Z.of_nat i)); reflexivity.
  - intros v v' ->. destruct (vget (q_Xty d) j); reflexivity.
Qed.
Lemma log_init_rel d0 d0' : df_initialize (log_sparse o) d0 (Dataset X (T1 y)) = df_initialize (log_sparse o) d0' (Dataset X' (T1 y')).
Proof using HX HX' HY.
  cbn [log_sparse df_initialize]. unfold log_sparse_initialize. cbn [design_matrix dtargets]. rewrite <- nf_rel. destruct (csc_n_features X) as [k|]; [|reflexivity]. cbn [bind]. cbn [n_samples]. rewrite (proj1 HY), (proj1 (proj2 HY)).
  erewrite mapM_same; [reflexivity|]. intros j _. cbv beta. apply rr_eq. apply (rr_bind _ _ _ _ _ _ (range_rel j)). intros r r' HF. apply (rr_bind eq).
  - apply (rr_foldM Q); [exact HF| |reflexivity]. intros b b' z z' -> (i & x & Hi & Ei & Ex & Ei' & Ex'). rewrite Ex, Ex'. reflexivity.
  - intros v v' ->. reflexivity.
Qed.
Lemma log_grad_rel d Xw Xw' j : moved n s Xw Xw' -> df_gradient_j (log_sparse o) d (Dataset X (T1 y)) Xw j = df_gradient_j (log_sparse o) d (Dataset X' (T1 y')) Xw' j.
Proof using HX HX' HY.
  intros HR. cbn [log_sparse df_gradient_j]. unfold log_sparse_gradient_j. cbn [design_matrix dtargets n_samples]. rewrite !st_T1. cbn [bind]. rewrite (proj1 HY), (proj1 (proj2 HY)). apply rr_eq. apply col_loop; [reflexivity|].
  intros b b' z z' -> HQ. destruct HQ as (i & x & Hi & Ei & Ex & Ei' & Ex'). rewrite ?Ei, ?Ex, ?Ei', ?Ex'; cbn [bind]; rewrite ?Ei, ?Ex, ?Ei', ?Ex'; cbn [bind]. rewrite (moved_getz n s y y' i HY Hi). destruct (vgetz y (Z.of_nat i)); [|reflexivity]. cbn [bind]. rewrite (moved_getz n s Xw Xw' i HR Hi). destruct (vgetz Xw (Z.of_nat i)); reflexivity.
Qed.
Lemma quad_val_rel d Xw Xw' acc : acc = false \/ (forall i, i < n -> s i = i) -> moved n s Xw Xw' -> rr (fun v v' : F => acc = true -> v = v') (quad_value o d (Dataset X (T1 y)) Xw) (quad_value o d (Dataset X' (T1 y')) Xw').
Proof using HY.
  intros HA HR. assert (L : forall (c : csc F) a b, length a = n -> length b = n -> exists v, quad_value o d (Dataset c (T1 a)) b = Ret v).
  { intros c a b La Lb. unfold quad_value. cbn [dtargets]. rewrite st_T1. cbn [bind]. unfold vsub, vbin. rewrite La, Lb, Nat.eqb_refl. cbn [bind]. unfold vdot. rewrite Nat.eqb_refl. eexists. reflexivity. }
  destruct HA as [->|HS].
  - destruct (L X y Xw (proj1 HY) (proj1 HR)) as [v ->]. destruct (L X' y' Xw' (proj1 (proj2 HY)) (proj1 (proj2 HR))) as [v' ->]. discriminate.
  - pose proof (moved_same n s y y' HS HY) as E1. pose proof (moved_same n s Xw Xw' HS HR) as E2. subst y' Xw'. apply rr_refl. auto.
Qed.
Lemma log_val_rel d Xw Xw' acc : acc = false \/ (forall i, i < n -> s i = i) -> moved n s Xw Xw' -> rr (fun v v' : F => acc = true -> v = v') (log_value o d (Dataset X (T1 y)) Xw) (log_value o d (Dataset X' (T1 y')) Xw').
Proof using HY.
  intros [->|HS] HR.
  - unfold log_value. cbn [dtargets]. rewrite !st_T1. cbn. discriminate.
  - pose proof (moved_same n s y y' HS HY) as E1. pose proof (moved_same n s Xw Xw' HS HR) as E2. subst y' Xw'. apply rr_refl. auto.
Qed.
Lemma layout_quad {P} (pen : Penalty F P) srt sv d0 d0' q : s_use_acceleration sv = false \/ (forall i, i < n -> s i = i) ->
  solve o srt (sparse_dm o) (quad_sparse o) pen sv (Dataset X (T1 y)) d0 q = solve o srt (sparse_dm o) (quad_sparse o) pen sv (Dataset X' (T1 y')) d0' q.
Proof using HX HX' HY RL.
  intros HA. unfold solve. apply (b_cd o (sparse_dm o) (quad_sparse o) (sparse_dm o) (quad_sparse o) pen srt (Dataset X (T1 y)) (Dataset X' (T1 y')) d0 d0' q (moved n s)).
  - exact nf_rel.
  - rewrite (quad_init_rel d0 d0'). apply rr_refl. intros d _. split; [reflexivity|]. split; [intros; apply quad_grad_rel; assumption|]. intros Xw Xw' HR. apply quad_val_rel; assumption.
  - intros Xw Xw' a j HR. apply up_rel, HR.
  - intros _ ws w. cbn [design_matrix dtargets n_samples sparse_dm dm_extrap]. rewrite (proj1 HY), (proj1 (proj2 HY)). apply ex_rel.
  - cbn [dtargets n_samples]. rewrite (proj1 HY), (proj1 (proj2 HY)). apply moved_repeat, RL.
Qed.
Lemma layout_log {P} (pen : Penalty F P) srt sv d0 d0' q : s_use_acceleration sv = false \/ (forall i, i < n -> s i = i) ->
  solve o srt (sparse_dm o) (log_sparse o) pen sv (Dataset X (T1 y)) d0 q = solve o srt (sparse_dm o) (log_sparse o) pen sv (Dataset X' (T1 y')) d0' q.
Proof using HX HX' HY RL.
  intros HA. unfold solve. apply (b_cd o (sparse_dm o) (log_sparse o) (sparse_dm o) (log_sparse o) pen srt (Dataset X (T1 y)) (Dataset X' (T1 y')) d0 d0' q (moved n s)).
  - exact nf_rel.
  - rewrite (log_init_rel d0 d0'). apply rr_refl. intros d _. split; [reflexivity|]. split; [intros; apply log_grad_rel; assumption|]. intros Xw Xw' HR. apply log_val_rel; assumption.
  - intros Xw Xw' a j HR. apply up_rel, HR.
  - intros _ ws w. cbn [design_matrix dtargets n_samples sparse_dm dm_extrap]. rewrite (proj1 HY), (proj1 (proj2 HY)). apply ex_rel.
  - cbn [dtargets n_samples]. rewrite (proj1 HY), (proj1 (proj2 HY)). apply moved_repeat, RL.
Qed.
End One.

Section Many.
Context (Y Y' : mat F) (HR0 : mnr Y = n /\ mnr Y' = n /\ mnc Y = mnc Y') (HY : moved n s (mrows Y) (mrows Y')).
Definition RM (A B : mat F) : Prop := mnr A = n /\ mnr B = n /\ mnc A = mnc B /\ moved n s (mrows A) (mrows B).
Lemma rm_get A B i t : RM A B -> i < n -> mget B (s i) t = mget A i t.
Proof using. clear HR0 HY. intros (_ & _ & _ & M) Hi. unfold mget. pose proof (moved_getz n s _ _ i M Hi) as H. unfold vgetz in H. rewrite !(proj2 (Z.ltb_ge _ _)) in H by lia. rewrite !Nat2Z.id in H. rewrite H. reflexivity. Qed.
Lemma rm_set A B i t v : RM A B -> i < n -> rr RM (mset A i t v) (mset B (s i) t v).
Proof using RL.
  clear HR0 HY. intros (E1 & E2 & E3 & M) Hi. unfold mset. pose proof (moved_getz n s _ _ i M Hi) as H. unfold vgetz in H. rewrite !(proj2 (Z.ltb_ge _ _)) in H by lia. rewrite !Nat2Z.id in H. rewrite H.
  destruct (vget (mrows A) i) as [r|]; [|reflexivity]. cbn [bind]. destruct (vset r t v) as [r'|]; [|reflexivity]. cbn [bind].
  pose proof (moved_setz n s RL _ _ i r' M Hi) as HS. unfold vsetz in HS. rewrite !(proj2 (Z.ltb_ge _ _)) in HS by lia. rewrite !Nat2Z.id in HS. apply (rr_bind _ _ _ _ _ _ HS). intros a b Hab. split; [exact E1|]. split; [exact E2|]. split; [exact E3|exact Hab].
Qed.
Lemma upm_rel A B a j : RM A B -> rr RM (sparse_update_mt o X A a j) (sparse_update_mt o X' B a j).
Proof using HX HX' RL.
  clear HR0 HY. intros HR. unfold sparse_update_mt. apply col_loop; [exact HR|]. intros b b' z z' HB HQ. assert (EC : mnc b' = mnc b) by (destruct HB as (_ & _ & E & _); congruence). rewrite EC. apply rr_foldM_same; [|exact HB].
  intros c c' t HC. destruct HQ as (i & x & Hi & Ei & Ex & Ei' & Ex'). rewrite Ei, Ei'. cbn [bind]. destruct (vget a t) as [at_|]; [|reflexivity]. cbn [bind]. rewrite Ex, Ex'. cbn [bind]. rewrite !(proj2 (Z.ltb_ge _ _)) by lia. rewrite !Nat2Z.id.
  rewrite (rm_get c c' i t HC Hi). destruct (mget c i t) as [v|]; [|reflexivity]. cbn [bind]. apply rm_set; assumption.
Qed.
Lemma exm_rel ws w nt : rr RM (sparse_extrap_mt o X ws w n nt) (sparse_extrap_mt o X' ws w n nt).
Proof using HX HX' RL.
  clear HR0 HY. unfold sparse_extrap_mt. apply rr_foldM_same; [|repeat (split; [reflexivity|]); apply moved_repeat, RL]. intros b b' j HB. apply col_loop; [exact HB|]. intros c c' z z' HC HQ. apply rr_foldM_same; [|exact HC].
  intros e e' t HE. destruct HQ as (i & x & Hi & Ei & Ex & Ei' & Ex'). rewrite Ei, Ei', Ex, Ex'. cbn [bind]. destruct (mget w j t) as [wj|]; [|reflexivity]. cbn [bind]. rewrite !(proj2 (Z.ltb_ge _ _)) by lia. rewrite !Nat2Z.id.
  rewrite (rm_get e e' i t HE Hi). destruct (mget e i t) as [v|]; [|reflexivity]. cbn [bind]. apply rm_set; assumption.
Qed.
Lemma RY : RM Y Y'. Proof using HR0 HY. destruct HR0 as (A & B & C). repeat split; auto; apply HY. Qed.
Lemma qmt_init_rel d0 d0' : dfm_initialize (qmt_sparse o) d0 (Dataset X (T2 Y)) = dfm_initialize (qmt_sparse o) d0' (Dataset X' (T2 Y')).
Proof using HX HX' HY HR0.
  pose proof RY as HM. destruct HR0 as (N1 & N2 & NT).
  cbn [qmt_sparse dfm_initialize]. unfold qmt_sparse_initialize. cbn [design_matrix dtargets]. rewrite <- nf_rel. destruct (csc_n_features X) as [k|]; [|reflexivity]. cbn [bind]. cbn [n_samples n_tasks as_multi_tasks]. rewrite N1, N2, NT.
  erewrite mapM_same; [reflexivity|]. intros j _. cbv beta. assert (E : qmt_sparse_init_feature o X Y (mnc Y') j = qmt_sparse_init_feature o X' Y' (mnc Y') j); [|rewrite E; reflexivity].
  unfold qmt_sparse_init_feature. apply rr_eq. apply col_loop; [reflexivity|]. intros b b' z z' -> HQ. destruct HQ as (i & x & Hi & Ei & Ex & Ei' & Ex'). rewrite Ex, Ex'. cbn [bind]. apply (rr_bind eq); [|intros u u' ->; reflexivity].
  apply rr_foldM_same; [|reflexivity]. intros c c' t ->. rewrite Ei, Ei'. cbn [bind]. rewrite !(proj2 (Z.ltb_ge _ _)) by lia. rewrite !Nat2Z.id, (rm_get Y Y' i t HM Hi). destruct (mget Y i t); [|reflexivity]. cbn [bind]. destruct (vget c' t); [|reflexivity]. cbn [bind]. apply rr_refl. auto.
Qed.
Lemma qmt_grad_rel d A B j : RM A B -> dfm_gradient_j (qmt_sparse o) d (Dataset X (T2 Y)) A j = dfm_gradient_j (qmt_sparse o) d (Dataset X' (T2 Y')) B j.
Proof using HX HX' HR0.
  intros HR. destruct HR0 as (N1 & N2 & NT). cbn [qmt_sparse dfm_gradient_j]. unfold qmt_sparse_gradient_j. cbn [design_matrix dtargets n_samples n_tasks]. rewrite N1, N2, NT. apply rr_eq.
  apply (rr_bind _ _ _ _ _ _ (range_rel j)). intros r r' HF. apply (rr_bind eq).
  - apply (rr_foldM Q); [exact HF| |reflexivity]. intros b b' z z' -> HQ. destruct HQ as (i & x & Hi & Ei & Ex & Ei' & Ex'). apply rr_foldM_same; [|reflexivity]. intros c c' t ->. rewrite Ei, Ei', Ex, Ex'. cbn [bind]. rewrite !(proj2 (Z.ltb_ge _ _)) by lia. rewrite !Nat2Z.id, (rm_get A B i t HR Hi).
    destruct (mget A i t); [|reflexivity]. cbn [bind]. destruct (vget c' t); [|reflexivity]. cbn [bind]. apply rr_refl. auto.
  - intros v v' ->. destruct (mrow (qm_XtY d) j); [|reflexivity]. cbn [bind]. destruct (vsub o v' _); reflexivity.
Qed.
Lemma qmt_val_rel d A B acc : acc = false \/ (forall i, i < n -> s i = i) -> RM A B -> rr (fun v v' : F => acc = true -> v = v') (qmt_value o d (Dataset X (T2 Y)) A) (qmt_value o d (Dataset X' (T2 Y')) B).
Proof using HR0 HY.
  intros HA (E1 & E2 & E3 & M). destruct HR0 as (N1 & N2 & NT). unfold qmt_value, msub. cbn [dtargets as_multi_tasks n_samples]. rewrite N1, N2, E1, E2, NT, E3, Nat.eqb_refl. cbn [andb]. destruct HA as [->|HS].
  - destruct (mnc Y' =? mnc B) eqn:EQ; [discriminate|]. unfold codim. rewrite Nat.eqb_refl. destruct (if _ =? _ then _ else _); [discriminate|reflexivity].
  - rewrite (moved_same n s _ _ HS HY), (moved_same n s _ _ HS M). destruct (mnc Y' =? mnc B) eqn:EQ; [intros _; reflexivity|]. unfold codim. rewrite Nat.eqb_refl. destruct (if _ =? _ then _ else _); [intros _; reflexivity|reflexivity].
Qed.
Lemma layout_qmt {P} (pen : PenaltyMT F P) srt sv d0 d0' q : s_use_acceleration sv = false \/ (forall i, i < n -> s i = i) ->
  solve_multi_task o srt (sparse_dm o) (qmt_sparse o) pen sv (Dataset X (T2 Y)) d0 q = solve_multi_task o srt (sparse_dm o) (qmt_sparse o) pen sv (Dataset X' (T2 Y')) d0' q.
Proof using HX HX' HY HR0 RL.
  intros HA. destruct HR0 as (N1 & N2 & NT). unfold solve_multi_task. apply (bm_cd o (sparse_dm o) (qmt_sparse o) (sparse_dm o) (qmt_sparse o) pen srt (Dataset X (T2 Y)) (Dataset X' (T2 Y')) d0 d0' q RM).
  - exact NT.
  - exact nf_rel.
  - rewrite (qmt_init_rel d0 d0'). apply rr_refl. intros d _. split; [reflexivity|]. split; [intros; apply qmt_grad_rel; assumption|]. intros A B HR. apply qmt_val_rel; assumption.
  - intros A B a j HR. apply upm_rel, HR.
  - intros _ ws w. cbn [design_matrix dtargets n_samples n_tasks sparse_dm dm_extrap_mt]. rewrite N1, N2, NT. apply exm_rel.
  - cbn [dtargets n_samples n_tasks]. rewrite N1, N2, NT. repeat (split; [reflexivity|]). apply moved_repeat, RL.
Qed.
End Many.
End L.
