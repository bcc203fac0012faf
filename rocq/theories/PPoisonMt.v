(** The same for several tasks: one block step at a NaN column makes every fitted value NaN. *)
From Coq Require Import List ZArith Bool Arith Lia.
From Verif Require Import Ops Arr MUtils MDatasets MDatafits MDatafitsMT MPenalties MBlockPenalties
  MCd MBcd MHyper MEstimators PBase SpecSolve PStruct PShape PNoPanic PNull PNan PPoison.
Import ListNotations.

(** entry [(i, t)] is present and equal to [x] *)
Definition cell {A} (m : mat A) (i t : nat) (x : A) : Prop := exists r, nth_error (mrows m) i = Some r /\ nth_error r t = Some x.
Lemma mset_cell {A} (m m' : mat A) i j v a b x : mset m i j v = Ret m' -> cell m' a b x -> (a = i /\ b = j /\ x = v) \/ ((a <> i \/ b <> j) /\ cell m a b x).
Proof.
  intros E (r & Hr & Hx). unfold mset in E. next E. apply vget_ne in Ex. next E. next E. injection E as <-. cbn [mrows] in Hr.
  destruct (vset_ne _ _ _ _ _ _ Ex1 Hr) as [[-> ->]|[Hne Hr']].
  - destruct (vset_ne _ _ _ _ _ _ Ex0 Hx) as [[-> ->]|[Hne Hx']]; [auto|]. right. split; [auto|]. exists x0. auto.
  - right. split; [auto|]. exists r. auto.
Qed.
Lemma mset_mnc {A} (m m' : mat A) i j v : mset m i j v = Ret m' -> mnc m' = mnc m.
Proof. intros E. unfold mset in E. next E. next E. next E. injection E as <-. reflexivity. Qed.
Lemma cell_get {A} (m : mat A) i t x : mget m i t = Ret x -> cell m i t x.
Proof. intros E. unfold mget in E. next E. exists x0. split; apply vget_ne; assumption. Qed.
Lemma cell_row {A} (m : mat A) i r : nth_error (mrows m) i = Some r -> forall t x, nth_error r t = Some x -> cell m i t x.
Proof. intros H t x Hx. exists r. auto. Qed.
Lemma cell_lt {A} r c (m : mat A) i t x : shaped r c m -> cell m i t x -> i < r /\ t < c.
Proof.
  intros (H1 & H2 & H3 & H4) (y & Hy & Hx). split; [rewrite <- H1, <- H3; apply nth_error_Some; congruence|].
  rewrite Forall_forall in H4. rewrite <- H2, <- (H4 y) by (eapply nth_error_In; eauto). apply nth_error_Some. congruence.
Qed.
Lemma nth_error_all {A} (P : A -> Prop) l : (forall i x, nth_error l i = Some x -> P x) <-> Forall P l.
Proof.
  rewrite Forall_forall. split.
  - intros H x Hx. apply In_nth_error in Hx as [i Hi]. eauto.
  - intros H i x Hx. apply H. eapply nth_error_In; eauto.
Qed.

Lemma mapM_len {A B} (f : A -> res B) l : forall bs, mapM f l = Ret bs -> length bs = length l.
Proof.
  induction l as [|a l IH]; intros bs E; cbn [mapM] in E; [injection E as <-; reflexivity|].
  next E. next E. injection E as <-. cbn. rewrite (IH _ eq_refl). reflexivity.
Qed.

Section Multi.
Context {F DM D P : Type} (o : FOps F) (LF : float_laws o) (NN : nan_laws o) (NS : nan_spread o).
Context (dm : DesignMatrix F DM) (df : DatafitMT F DM D) (pen : PenaltyMT F P) (srt : list F -> list nat) (VS : valid_sort o srt).
Variables (n p T : nat) (ds : dataset DM F) (d : D) (p_ : P).
Hypotheses (HD : dm_sh dm (design_matrix ds) n p) (HP : bpen_sh o T pen p_) (Hns : n_samples (dtargets ds) = n) (Hnt : n_tasks (dtargets ds) = T).
Hypotheses (G : dfm_good df d ds n p T) (HT : 1 <= T).
Notation lips := (dfm_step_size df d).
Definition isn (x : F) : Prop := fisnan o x = true.
Definition mpoisoned (XW : mat F) : Prop := shaped n T XW /\ forall i t x, cell XW i t x -> isn x.
Hypothesis (Hnew : forall XW diff j XW', shaped n T XW -> length diff = T -> Forall isn diff -> dm_update_mt dm (design_matrix ds) XW diff j = Ret XW' -> mpoisoned XW').
Hypothesis (Hgr : forall XW j g, mpoisoned XW -> dfm_gradient_j df d ds XW j = Ret g -> Forall isn g).
Hypothesis (Hval : forall XW v, mpoisoned XW -> dfm_value df d ds XW = Ret v -> isn v).
Hypothesis (Hprox : forall v s, length v = T -> Forall isn v -> Forall isn (bpen_prox pen p_ v s)).

Definition untouched_mt (W : mat F) : Prop := forall j t x l, cell W j t x -> nth_error lips j = Some l -> feq o l (f0 o) = true -> x = f0 o.
Definition spoilt_mt (W : mat F) (j : nat) : Prop := forall t x l, cell W j t x -> nth_error lips j = Some l ->
  (feq o l (f0 o) = true -> x = f0 o) /\ (feq o l (f0 o) = false -> isn x).

Lemma row_fold upd j l : Forall isn upd -> forall W W', foldM (fun W t => u <- vget upd t ;; mset W j t u) l W = Ret W' ->
  forall a b x, cell W' a b x -> (a = j /\ In b l /\ isn x) \/ ((a <> j \/ ~ In b l) /\ cell W a b x).
Proof.
  intros HU. induction l as [|t l IH]; intros W W' E a b x Hc; cbn [foldM] in E.
  - injection E as <-. right. split; auto.
  - next E. rename x0 into W1. next Ex. destruct (IH _ _ E _ _ _ Hc) as [(-> & Hb & Hx)|[Hne Hc1]]; [left; cbn; auto|].
    destruct (mset_cell _ _ _ _ _ _ _ _ Ex Hc1) as [(-> & -> & ->)|[Hne' Hc2]].
    + left. split; [reflexivity|]. split; [left; reflexivity|]. apply (proj2 (nth_error_all isn upd) HU t). apply vget_ne. exact Ex0.
    + right. split; [|exact Hc2]. destruct (Nat.eq_dec a j) as [->|]; [|left; assumption]. right. intros [<-|Hin].
      * destruct Hne' as [H|H]; apply H; reflexivity.
      * destruct Hne as [H|H]; [apply H; reflexivity|exact (H Hin)].
Qed.

Lemma poison_step_mt W XW j W' XW' : bcd_step o dm df pen ds d p_ (W, XW) j = Ret (W', XW') -> j < p -> stm_ok n p T (W, XW) -> untouched_mt W ->
  stm_ok n p T (W', XW') /\ untouched_mt W' /\
  (mpoisoned XW -> mpoisoned XW' /\ spoilt_mt W' j /\ forall k, spoilt_mt W k -> spoilt_mt W' k) /\
  (forall l, nth_error lips j = Some l -> isn l -> mpoisoned XW').
Proof using All.
  intros E Hj HS HU.
  destruct (t_step_mt o dm df pen n p T ds p_ HD HP Hns Hnt d (W, XW) j G HS Hj) as (st & Est & HS'). rewrite E in Est. injection Est as <-.
  split; [exact HS'|]. destruct HS as [HW HX], HS' as [HW' HX']. cbn [fst snd] in *.
  unfold bcd_step in E. rewrite Hnt in E. next E. apply vget_ne in Ex. rename x into l.
  destruct (feq o l (f0 o)) eqn:El.
  { injection E as <- <-. split; [exact HU|]. split.
    - intros HPo. split; [exact HPo|]. split; [|auto]. intros t x l' Hx Hl. rewrite Ex in Hl. injection Hl as <-. split; [|congruence].
      intros _. exact (HU j t x l Hx Ex El).
    - intros l' Hl HN. rewrite Ex in Hl. injection Hl as <-. unfold isn in HN. rewrite (ns_eql o NS) in El by exact HN. discriminate. }
  next E. next E. next E. next E. next E.
  assert (Lold : length x = T).
  { apply vget_ne in Ex0. destruct HW as (_ & H2 & _ & H4). rewrite Forall_forall in H4. rewrite (H4 x) by (eapply nth_error_In; eauto). exact H2. }
  assert (Lg : length x0 = T). { destruct G as (_ & _ & G3). destruct (G3 XW j HX Hj) as (g & Eg & Lg). rewrite Ex1 in Eg. injection Eg as <-. exact Lg. }
  assert (Leq : length x = length (map (fun g => fdiv o g l) x0)) by (rewrite map_length; lia).
  assert (Lst : length x1 = T).
  { unfold vsub, vbin in Ex2. rewrite Leq, Nat.eqb_refl in Ex2. injection Ex2 as <-.
    unfold map2. rewrite map_length, combine_length. lia. }
  assert (HU' : untouched_mt x2).
  { intros k t y l' Hy Hl' Hz.
    destruct (Nat.eq_dec k j) as [->|Hne]; [rewrite Ex in Hl'; congruence|].
    assert (C : cell W k t y); [|exact (HU k t y l' C Hl' Hz)].
    clear - Ex3 Hy Hne. revert W x2 Ex3 Hy. induction (seq 0 T) as [|q qs IH]; intros W x2 E Hy; cbn [foldM] in E; [injection E as <-; exact Hy|].
    next E. next Ex. pose proof (IH _ _ E Hy) as C. destruct (mset_cell _ _ _ _ _ _ _ _ Ex C) as [(H & _)|[_ C']]; [congruence|exact C']. }
  (* a NaN step: the new row is NaN, every difference is NaN *)
  assert (K : Forall isn x1 -> spoilt_mt W' j /\ (forall k, spoilt_mt W k -> spoilt_mt W' k) /\ mpoisoned XW').
  { intros HN. assert (HB := Hprox x1 (fdiv o (f1 o) l) Lst HN).
    assert (HC := row_fold _ j (seq 0 T) HB W x2 Ex3).
    assert (HJ : forall t y, cell x2 j t y -> t < T -> isn y).
    { intros t y Hy Ht. destruct (HC _ _ _ Hy) as [(_ & _ & H)|[[H|H] _]]; [exact H|congruence|]. exfalso. apply H. apply in_seq. lia. }
    assert (HDf : Forall isn x3 /\ length x3 = T).
    { split.
      - apply Forall_forall. intros y Hy. destruct (mapM_in _ _ _ Ex4 y Hy) as ([t u] & Hin & Et). cbn [fst snd] in Et. next Et. injection Et as <-.
        apply (nn_subl o NN). apply in_combine_l, in_seq in Hin. apply (HJ t); [apply cell_get; exact Ex5|lia].
      - rewrite (mapM_len _ _ _ Ex4), combine_length, seq_length. lia. }
    destruct HDf as [HDf LD].
    assert (HA : any_nonzero o x3 = true).
    { destruct x3 as [|y ys]; [cbn in LD; lia|]. apply Forall_inv in HDf. cbn. rewrite (ns_eql o NS) by exact HDf. reflexivity. }
    rewrite HA in E. next E. injection E as <- <-.
    assert (SJ : spoilt_mt x2 j).
    { intros t y l' Hy Hl'. rewrite Ex in Hl'. injection Hl' as <-. split; [congruence|]. intros _. apply (HJ t y Hy). apply (cell_lt p T x2 j t y HW' Hy). }
    split; [exact SJ|]. split; [|exact (Hnew _ _ _ _ HX LD HDf Ex5)].
    intros k Hk. destruct (Nat.eq_dec k j) as [->|Hne]; [exact SJ|].
    intros t y l' Hy Hl'. destruct (HC _ _ _ Hy) as [(H & _)|[_ Hc]]; [congruence|]. exact (Hk t y l' Hc Hl'). }
  assert (UW : untouched_mt W').
  { destruct (any_nonzero o x3); [next E; injection E as <- <-|injection E as <- <-]; exact HU'. }
  split; [exact UW|].
  assert (HG : Forall isn (map (fun g => fdiv o g l) x0) -> Forall isn x1).
  { intros H. unfold vsub, vbin in Ex2. rewrite Leq, Nat.eqb_refl in Ex2. injection Ex2 as <-. unfold map2. apply Forall_forall. intros y Hy.
    apply in_map_iff in Hy as ([u v] & <- & Huv). apply in_combine_r in Huv. rewrite Forall_forall in H. apply (nn_subr o NN). exact (H v Huv). }
  split.
  - intros HPo. assert (HN : Forall isn x1).
    { apply HG. apply Forall_forall. intros y Hy. apply in_map_iff in Hy as (u & <- & Hu). apply (nn_div o NN).
      pose proof (Hgr _ _ _ HPo Ex1) as H. rewrite Forall_forall in H. exact (H u Hu). }
    destruct (K HN) as (K1 & K2 & K3). auto.
  - intros l' Hl' HN. rewrite Ex in Hl'. injection Hl' as <-. apply K. apply HG. apply Forall_forall. intros y Hy.
    apply in_map_iff in Hy as (u & <- & Hu). apply (ns_divr o NS). exact HN.
Qed.
Lemma poison_steps_mt ws : (forall j, In j ws -> j < p) -> forall W XW W' XW', foldM (bcd_step o dm df pen ds d p_) ws (W, XW) = Ret (W', XW') ->
  stm_ok n p T (W, XW) -> untouched_mt W ->
  stm_ok n p T (W', XW') /\ untouched_mt W' /\
  (mpoisoned XW -> mpoisoned XW' /\ (forall j, In j ws -> spoilt_mt W' j) /\ forall k, spoilt_mt W k -> spoilt_mt W' k) /\
  (forall j l, In j ws -> nth_error lips j = Some l -> isn l -> mpoisoned XW').
Proof using All.
  induction ws as [|j ws IH]; intros Hin W XW W' XW' E HS HU; cbn [foldM] in E.
  - injection E as <- <-. split; [exact HS|]. split; [exact HU|]. split; [intros HPo; split; [exact HPo|]; split; [intros j []|auto]|intros j l []].
  - next E. destruct x as [W1 X1]. destruct (poison_step_mt _ _ _ _ _ Ex (Hin j (or_introl eq_refl)) HS HU) as (HS1 & HU1 & A1 & B1).
    destruct (IH (fun k Hk => Hin k (or_intror Hk)) _ _ _ _ E HS1 HU1) as (HS2 & HU2 & A2 & B2).
    split; [exact HS2|]. split; [exact HU2|]. split.
    + intros HPo. destruct (A1 HPo) as (P1 & S1 & K1). destruct (A2 P1) as (P2 & S2 & K2). split; [exact P2|]. split; [|auto].
      intros k [<-|Hk]; auto.
    + intros k l [<-|Hk] Hl HN; [|eauto]. destruct (A2 (B1 l Hl HN)) as (P2 & _). exact P2.
Qed.
Lemma poison_accel_mt m W XW ws e K v r : mpoisoned XW -> anderson_accel_mt o dm df pen ds W XW d p_ ws m e K v = Ret r -> fst r = (W, XW).
Proof using All.
  intros HPo E. unfold anderson_accel_mt in E. next E. next E. destruct (_ =? _); [|injection E as <-; reflexivity].
  next E. destruct x1 as [pt|]; [|injection E as <-; reflexivity]. next E. next E. next E. next E.
  rewrite (nn_lt o NN) in E; [injection E as <-; reflexivity|]. apply (ns_addl o NS). exact (Hval _ _ HPo Ex4).
Qed.
Lemma poison_inner_mt nf tol km K a v ws wsz es : (forall j, In j ws -> j < p) -> forall W XW m W' XW',
  inner_loop_mt o dm df pen ds d p_ nf tol km K a v ws wsz es W XW m = Ret (W', XW') -> stm_ok n p T (W, XW) -> untouched_mt W -> mpoisoned XW ->
  stm_ok n p T (W', XW') /\ untouched_mt W' /\ mpoisoned XW' /\ (forall j, spoilt_mt W j -> spoilt_mt W' j) /\ (es <> [] -> forall j, In j ws -> spoilt_mt W' j).
Proof using All.
  intros Hin. induction es as [|e es IH]; intros W XW m W' XW' E HS HU HPo; cbn [inner_loop_mt] in E.
  - injection E as <- <-. split; [exact HS|]. split; [exact HU|]. split; [exact HPo|]. split; [auto|]. congruence.
  - next E. destruct x as [W1 X1]. destruct (poison_steps_mt _ Hin _ _ _ _ Ex HS HU) as (HS1 & HU1 & A1 & _). destruct (A1 HPo) as (HP1 & S1 & K1).
    next E. destruct x as [[W2 X2] m2].
    assert (E2 : (W2, X2) = (W1, X1)).
    { destruct a; [exact (poison_accel_mt _ _ _ _ _ _ _ _ HP1 Ex0)|]. injection Ex0 as <- <- _. reflexivity. }
    injection E2 as -> ->.
    assert (Q : forall r, inner_loop_mt o dm df pen ds d p_ nf tol km K a v ws wsz es W1 X1 m2 = Ret r -> r = (W', XW') ->
      stm_ok n p T (W', XW') /\ untouched_mt W' /\ mpoisoned XW' /\ (forall j, spoilt_mt W j -> spoilt_mt W' j) /\ (e :: es <> [] -> forall j, In j ws -> spoilt_mt W' j)).
    { intros r Er ->. destruct (IH _ _ _ _ _ Er HS1 HU1 HP1) as (Q0 & Q1 & Q2 & Q3 & _). split; [exact Q0|]. split; [exact Q1|]. split; [exact Q2|]. split; auto. }
    assert (Q0 : Ret (W1, X1) = Ret (W', XW') ->
      stm_ok n p T (W', XW') /\ untouched_mt W' /\ mpoisoned XW' /\ (forall j, spoilt_mt W j -> spoilt_mt W' j) /\ (e :: es <> [] -> forall j, In j ws -> spoilt_mt W' j)).
    { intros H. injection H as <- <-. auto 10. }
    destruct (_ && _); [|exact (Q _ E eq_refl)]. next E. next E. destruct x0 as [ks km'].
    destruct (wsz =? nf); [destruct (fle o km' tol)|destruct (flt o km' _)]; first [exact (Q0 E)|exact (Q _ E eq_refl)].
Qed.
Lemma poison_inner_first_mt nf tol km K a v ws wsz es W XW m W' XW' j l : (forall j, In j ws -> j < p) -> In j ws -> nth_error lips j = Some l -> isn l -> es <> [] ->
  inner_loop_mt o dm df pen ds d p_ nf tol km K a v ws wsz (0 :: es) W XW m = Ret (W', XW') -> stm_ok n p T (W, XW) -> untouched_mt W ->
  stm_ok n p T (W', XW') /\ untouched_mt W' /\ mpoisoned XW' /\ forall k, In k ws -> spoilt_mt W' k.
Proof using All.
  intros Hin Hj Hl HN He E HS HU. cbn [inner_loop_mt] in E. next E. destruct x as [W1 X1]. destruct (poison_steps_mt _ Hin _ _ _ _ Ex HS HU) as (HS1 & HU1 & _ & B1).
  specialize (B1 j l Hj Hl HN). next E. destruct x as [[W2 X2] m2].
  assert (E2 : (W2, X2) = (W1, X1)).
  { destruct a; [exact (poison_accel_mt _ _ _ _ _ _ _ _ B1 Ex0)|]. injection Ex0 as <- <- _. reflexivity. }
  injection E2 as -> ->. cbn [Nat.ltb Nat.leb andb] in E. destruct (poison_inner_mt _ _ _ _ _ _ _ _ _ Hin _ _ _ _ _ E HS1 HU1 B1) as (Q0 & Q1 & Q2 & _ & Q3). auto.
Qed.
Lemma poison_outer_mt s me tol K a v it : s <= p -> forall W XW W', outer_loop_mt o dm df pen srt ds d p_ p s me tol K a v it W XW = Ret W' ->
  stm_ok n p T (W, XW) -> untouched_mt W -> mpoisoned XW -> (forall j, spoilt_mt W j) -> shaped p T W' /\ forall j, spoilt_mt W' j.
Proof using All.
  intros Hs. induction it as [|it IH]; intros W XW W' E HS HU HPo HSp; cbn [outer_loop_mt] in E; [injection E as <-; split; [apply HS|exact HSp]|].
  destruct (select_mt_ok o LF df pen srt VS n p T ds p_ HP Hns Hnt d W XW s G (proj1 HS) (proj2 HS) Hs) as (sc & mx & ws & Es & Ews & Hin & _).
  rewrite Es in E. cbn [bind] in E. destruct (fle o mx tol); [injection E as <-; split; [apply HS|exact HSp]|].
  rewrite Ews in E. cbn [bind] in E. next E. destruct x as [W1 X1].
  destruct (poison_inner_mt _ _ _ _ _ _ _ _ _ Hin _ _ _ _ _ Ex HS HU HPo) as (Q0 & Q1 & Q2 & Q3 & _). exact (IH _ _ _ E Q0 Q1 Q2 (fun j => Q3 j (HSp j))).
Qed.
Lemma poison_bcd d0 s mi me tol K a v W' j l : dfm_initialize df d0 ds = Ret d -> p <= s -> 2 <= me -> nth_error lips j = Some l -> isn l ->
  block_coordinate_descent o dm df pen srt ds d0 p_ s mi me tol K a v = Ret W' -> W' = mzeros o p T \/ (shaped p T W' /\ forall k, spoilt_mt W' k).
Proof using All.
  intros HI Hs Hme Hj HN E. unfold block_coordinate_descent in E. rewrite (sh_nf _ _ _ _ HD), Hns, Hnt, HI in E. cbn [bind] in E.
  set (s' := if p <? s then p else s) in *. assert (Hs' : s' = p) by (unfold s'; destruct (Nat.ltb_spec p s); lia). rewrite Hs' in E. clear s' Hs'.
  destruct mi as [|mi]; cbn [outer_loop_mt] in E; [injection E as <-; left; reflexivity|].
  assert (Lj : j < p). { rewrite <- (proj1 G). apply nth_error_Some. congruence. }
  assert (HU : untouched_mt (mzeros o p T)).
  { intros k t x l' (r & Hr & Hx) _ _. apply nth_error_In, repeat_spec in Hr. subst r. apply nth_error_In, repeat_spec in Hx. exact Hx. }
  assert (HZ : shaped p T (mzeros o p T)) by apply mzeros_shaped. assert (HZ' : shaped n T (mzeros o n T)) by apply mzeros_shaped.
  destruct (t_ocv_mt o df pen n p T ds p_ HP Hnt d (mzeros o p T) (mzeros o n T) (seq 0 p) G HZ HZ') as (sc & mx & Es & HL & HNs);
    [intros k Hk; apply in_seq in Hk; lia|]. rewrite Es in E. cbn [bind] in E. rewrite seq_length in HL.
  destruct (fle o mx tol); [injection E as <-; left; reflexivity|]. right.
  rewrite (construct_ws_mt_select o srt _ sc p p T) in E by auto.
  destruct (select_ok o srt LF (nzm o (mzeros o p T)) p sc p VS (le_n p)) as (ws & Ews & [ND Hin] & HLw & _).
  { intros k Hk Ek. unfold nzm in Ek. destruct (HNs k k (nth k (mrows (mzeros o p T)) [])) as (x & Ex & Hx).
    - rewrite (nth_error_nth' _ 0) by (rewrite seq_length; auto). rewrite seq_nth; auto.
    - apply nth_error_nth'. cbn. rewrite repeat_length. exact Hk.
    - auto.
    - rewrite (nth_error_nth _ _ _ Ex). auto. }
  rewrite Ews in E. cbn [bind] in E. rewrite Nat.max_l in HLw by lia.
  assert (Hall : forall k, k < p -> In k ws).
  { intros k Hk. assert (incl (seq 0 p) ws); [|apply H, in_seq; lia]. apply NoDup_length_incl; [exact ND|rewrite seq_length; lia|].
    intros q Hq. apply in_seq. specialize (Hin q Hq). lia. }
  next E. destruct x as [W1 X1]. destruct me as [|[|me]]; [lia|lia|]. cbn [seq] in Ex. assert (HE : 1 :: seq 2 me <> []) by discriminate.
  destruct (poison_inner_first_mt _ _ _ _ _ _ _ _ _ _ _ _ _ _ _ _ Hin (Hall j Lj) Hj HN HE Ex (conj HZ HZ') HU) as (O1 & U1 & P1 & S1).
  assert (S1' : forall k, spoilt_mt W1 k).
  { intros k. destruct (Nat.lt_ge_cases k p) as [Hk|Hk]; [exact (S1 k (Hall k Hk))|].
    intros t x l' _ Hl'. assert (k < length lips) by (apply nth_error_Some; congruence). rewrite (proj1 G) in H. lia. }
  exact (poison_outer_mt _ _ _ _ _ _ _ (le_n p) _ _ _ E O1 U1 P1 S1').
Qed.
End Multi.
