(** A NaN in the design matrix: one coordinate step makes every fitted value NaN, and everything
    after that step is computed from NaN. *)
From Coq Require Import List ZArith Bool Arith Lia.
From Verif Require Import Ops Arr MUtils MDatasets MDatafits MDatafitsMT MPenalties MBlockPenalties
  MCd MBcd MHyper MEstimators PBase SpecSolve PStruct PShape PNoPanic PNull PNan.
Import ListNotations.

(** how NaN spreads *)
Record nan_spread {F} (o : FOps F) : Prop := {
  ns_ndot : forall a b x, length a = length b -> In x a -> fisnan o x = true -> fisnan o (ndot o a b) = true;
  ns_divr : forall x y, fisnan o y = true -> fisnan o (fdiv o x y) = true;
  ns_addl : forall x y, fisnan o x = true -> fisnan o (fadd o x y) = true;
  ns_addr : forall x y, fisnan o y = true -> fisnan o (fadd o x y) = true;
  ns_mull : forall x y, fisnan o x = true -> fisnan o (fmul o x y) = true;
  ns_mulr : forall x y, fisnan o y = true -> fisnan o (fmul o x y) = true;
  ns_signum : forall x, fisnan o x = true -> fisnan o (fsignum o x) = true;
  ns_isum : forall l x, In x l -> fisnan o x = true -> fisnan o (isum o l) = true;
  ns_nsum : forall l x, In x l -> fisnan o x = true -> fisnan o (nsum o l) = true;
  ns_ltl : forall x y, fisnan o x = true -> flt o x y = false;
  ns_lel : forall x y, fisnan o x = true -> fle o x y = false;
  ns_eql : forall x y, fisnan o x = true -> feq o x y = false;
  ns_zdiv : forall x, zn o (fdiv o (f0 o) x)
}.

Ltac next E := match type of E with
  | bind ?m _ = Ret _ => let x := fresh "x" in let Ex := fresh "Ex" in
      destruct m as [x|] eqn:Ex; [|discriminate]; cbn [bind] in E
  end.
Lemma vget_ne {A} (l : list A) i a : vget l i = Ret a -> nth_error l i = Some a.
Proof. unfold vget. destruct (nth_error l i); [congruence|discriminate]. Qed.
Lemma upd_ne {A} (l : list A) i a k x : nth_error (upd l i a) k = Some x -> (k = i /\ x = a) \/ (k <> i /\ nth_error l k = Some x).
Proof.
  revert i k. induction l as [|y l IH]; intros [|i] [|k] E; cbn in *; try discriminate; auto.
  - injection E as <-. auto.
  - destruct (IH _ _ E) as [[-> ->]|[H1 H2]]; auto.
Qed.
Lemma vset_ne {A} (l l' : list A) i a k x : vset l i a = Ret l' -> nth_error l' k = Some x -> (k = i /\ x = a) \/ (k <> i /\ nth_error l k = Some x).
Proof. unfold vset. destruct (_ <? _); [|discriminate]. intros E. injection E as <-. apply upd_ne. Qed.

Section Single.
Context {F DM D P : Type} (o : FOps F) (NN : nan_laws o) (NS : nan_spread o).
Context (dm : DesignMatrix F DM) (df : Datafit F DM D) (pen : Penalty F P) (srt : list F -> list nat).
Variables (ds : dataset DM F) (d : D) (p_ : P) (poisoned : list F -> Prop) (Bad : F -> Prop).
Notation lips := (df_step_size df d).
Hypothesis (Hup : forall Xw diff j Xw', poisoned Xw -> dm_update dm (design_matrix ds) Xw diff j = Ret Xw' -> poisoned Xw').
Hypothesis (Hnew : forall Xw diff j Xw' g, df_gradient_j df d ds Xw j = Ret g -> fisnan o diff = true -> dm_update dm (design_matrix ds) Xw diff j = Ret Xw' -> poisoned Xw').
Hypothesis (Hgr : forall Xw j g, poisoned Xw -> df_gradient_j df d ds Xw j = Ret g -> fisnan o g = true).
Hypothesis (Hval : forall Xw v, poisoned Xw -> df_value df d ds Xw = Ret v -> fisnan o v = true).
Hypothesis (Hprox : forall v s, fisnan o v = true -> Bad (pen_prox pen p_ v s)).
Hypothesis (Hprox0 : forall v s, fisnan o v = true -> fisnan o s = true -> fisnan o (pen_prox pen p_ v s) = true).

(** coefficients of columns with step size zero are never touched *)
Definition untouched (w : list F) : Prop := forall j x l, nth_error w j = Some x -> nth_error lips j = Some l -> feq o l (f0 o) = true -> x = f0 o.
(** the coefficient of feature [j] is what a step from NaN makes of it *)
Definition spoilt (w : list F) (j : nat) : Prop := forall x l, nth_error w j = Some x -> nth_error lips j = Some l ->
  (feq o l (f0 o) = true -> x = f0 o) /\ (feq o l (f0 o) = false -> Bad x) /\ (fisnan o l = true -> fisnan o x = true).

Lemma poison_step w Xw j w' Xw' : cd_step o dm df pen ds d p_ (w, Xw) j = Ret (w', Xw') -> untouched w ->
  untouched w' /\ (poisoned Xw -> poisoned Xw' /\ spoilt w' j /\ forall k, spoilt w k -> spoilt w' k) /\
  (forall l, nth_error lips j = Some l -> fisnan o l = true -> poisoned Xw').
Proof using NN NS Hup Hnew Hgr Hprox Hprox0.
  intros E HU. unfold cd_step in E. next E. apply vget_ne in Ex. rename x into l.
  destruct (feq o l (f0 o)) eqn:El.
  { injection E as <- <-. split; [exact HU|]. split.
    - intros HP. split; [exact HP|]. split; [|auto]. intros x l' Hx Hl. rewrite Ex in Hl. injection Hl as <-. split; [|split].
      + intros _. exact (HU j x l Hx Ex El).
      + congruence.
      + intros HN. rewrite (ns_eql o NS) in El by exact HN. discriminate.
    - intros l' Hl HN. rewrite Ex in Hl. injection Hl as <-. rewrite (ns_eql o NS) in El by exact HN. discriminate. }
  next E. next E. next E. cbv zeta in E.
  assert (HU' : untouched x1).
  { intros k y l' Hk Hl' Hz. destruct (vset_ne _ _ _ _ _ _ Ex2 Hk) as [[-> ->]|[Hne Hk']]; [congruence|]. exact (HU k y l' Hk' Hl' Hz). }
  assert (HS : (fisnan o x0 = true -> spoilt x1 j) /\ forall k, spoilt w k -> fisnan o x0 = true -> spoilt x1 k).
  { assert (HS0 : fisnan o x0 = true -> spoilt x1 j).
    { intros HN y l' Hy Hl'. rewrite Ex in Hl'. injection Hl' as <-. destruct (vset_ne _ _ _ _ _ _ Ex2 Hy) as [[_ ->]|[Hne _]]; [|congruence].
      assert (HV : fisnan o (fsub o x (fdiv o x0 l)) = true) by (apply (nn_subr o NN), (nn_div o NN); exact HN).
      split; [congruence|]. split; [intros _; apply Hprox; exact HV|]. intros HL. apply Hprox0; [exact HV|]. apply (ns_divr o NS). exact HL. }
    split; [exact HS0|]. intros k Hk HN. destruct (Nat.eq_dec k j) as [->|Hne]; [exact (HS0 HN)|].
    intros y l' Hy Hl'. destruct (vset_ne _ _ _ _ _ _ Ex2 Hy) as [[He _]|[_ Hk']]; [congruence|]. exact (Hk y l' Hk' Hl'). }
  destruct HS as [HS1 HS2].
  assert (HQ : fisnan o l = true -> fisnan o (fsub o (pen_prox pen p_ (fsub o x (fdiv o x0 l)) (fdiv o (f1 o) l)) x) = true).
  { intros HL. apply (nn_subl o NN), Hprox0; [|apply (ns_divr o NS); exact HL]. apply (nn_subr o NN), (ns_divr o NS). exact HL. }
  destruct (feq o (fsub o _ x) (f0 o)) eqn:Ed; cbn [negb] in E.
  - injection E as <- <-. split; [exact HU'|]. split.
    + intros HP. pose proof (Hgr _ _ _ HP Ex1). auto.
    + intros l' Hl' HN. rewrite Ex in Hl'. injection Hl' as <-. rewrite (ns_eql o NS) in Ed by (apply HQ; exact HN). discriminate.
  - next E. injection E as <- <-. split; [exact HU'|]. split.
    + intros HP. pose proof (Hgr _ _ _ HP Ex1). split; [exact (Hup _ _ _ _ HP Ex3)|auto].
    + intros l' Hl' HN. rewrite Ex in Hl'. injection Hl' as <-. apply (Hnew _ _ _ _ _ Ex1 (HQ HN) Ex3).
Qed.
Lemma poison_steps ws : forall w Xw w' Xw', foldM (cd_step o dm df pen ds d p_) ws (w, Xw) = Ret (w', Xw') -> untouched w ->
  untouched w' /\ (poisoned Xw -> poisoned Xw' /\ (forall j, In j ws -> spoilt w' j) /\ forall k, spoilt w k -> spoilt w' k) /\
  (forall j l, In j ws -> nth_error lips j = Some l -> fisnan o l = true -> poisoned Xw').
Proof using NN NS Hup Hnew Hgr Hprox Hprox0.
  induction ws as [|j ws IH]; intros w Xw w' Xw' E HU; cbn [foldM] in E.
  - injection E as <- <-. split; [exact HU|]. split; [intros HP; split; [exact HP|]; split; [intros j []|auto]|intros j l []].
  - next E. destruct x as [w1 X1]. destruct (poison_step _ _ _ _ _ Ex HU) as (HU1 & A1 & B1). destruct (IH _ _ _ _ E HU1) as (HU2 & A2 & B2).
    split; [exact HU2|]. split.
    + intros HP. destruct (A1 HP) as (P1 & S1 & K1). destruct (A2 P1) as (P2 & S2 & K2). split; [exact P2|]. split; [|auto].
      intros k [<-|Hk]; auto.
    + intros k l [<-|Hk] Hl HN; [|eauto]. destruct (A2 (B1 l Hl HN)) as (P2 & _). exact P2.
Qed.
Lemma poison_accel m w Xw ws e K v r : poisoned Xw -> anderson_accel o dm df pen ds d p_ m w Xw ws e K v = Ret r -> fst r = (w, Xw).
Proof using NN NS Hval.
  intros HP E. unfold anderson_accel in E. next E. next E. destruct (_ =? _); [|injection E as <-; reflexivity].
  next E. destruct x1 as [pt|]; [|injection E as <-; reflexivity]. next E. next E. next E. next E.
  rewrite (nn_lt o NN) in E; [injection E as <-; reflexivity|]. apply (ns_addl o NS). exact (Hval _ _ HP Ex4).
Qed.
Definition spoilt_state (w Xw : list F) : Prop := untouched w /\ poisoned Xw /\ forall j, spoilt w j.
Lemma poison_inner nf tol km K a v ws wsz es : forall w Xw m w' Xw',
  inner_loop o dm df pen ds d p_ nf tol km K a v ws wsz es w Xw m = Ret (w', Xw') -> untouched w -> poisoned Xw ->
  untouched w' /\ poisoned Xw' /\ (forall j, spoilt w j -> spoilt w' j) /\ (es <> [] -> forall j, In j ws -> spoilt w' j).
Proof using NN NS Hup Hnew Hgr Hprox Hprox0 Hval.
  induction es as [|e es IH]; intros w Xw m w' Xw' E HU HP; cbn [inner_loop] in E.
  - injection E as <- <-. split; [exact HU|]. split; [exact HP|]. split; [auto|]. congruence.
  - next E. destruct x as [w1 X1]. destruct (poison_steps _ _ _ _ _ Ex HU) as (HU1 & A1 & _). destruct (A1 HP) as (HP1 & S1 & K1).
    next E. destruct x as [[w2 X2] m2].
    assert (E2 : (w2, X2) = (w1, X1)).
    { destruct a; [exact (poison_accel _ _ _ _ _ _ _ _ HP1 Ex0)|]. injection Ex0 as <- <- _. reflexivity. }
    injection E2 as -> ->.
    assert (G : forall r, inner_loop o dm df pen ds d p_ nf tol km K a v ws wsz es w1 X1 m2 = Ret r -> r = (w', Xw') ->
      untouched w' /\ poisoned Xw' /\ (forall j, spoilt w j -> spoilt w' j) /\ (e :: es <> [] -> forall j, In j ws -> spoilt w' j)).
    { intros r Er ->. destruct (IH _ _ _ _ _ Er HU1 HP1) as (Q1 & Q2 & Q3 & _). split; [exact Q1|]. split; [exact Q2|]. split; auto. }
    assert (G0 : Ret (w1, X1) = Ret (w', Xw') ->
      untouched w' /\ poisoned Xw' /\ (forall j, spoilt w j -> spoilt w' j) /\ (e :: es <> [] -> forall j, In j ws -> spoilt w' j)).
    { intros H. injection H as <- <-. auto. }
    destruct (_ && _); [|exact (G _ E eq_refl)]. next E. next E. destruct x0 as [ks km'].
    destruct (wsz =? nf); [destruct (fle o km' tol)|destruct (flt o km' _)]; first [exact (G0 E)|exact (G _ E eq_refl)].
Qed.
(** the first working set contains a NaN column, and every feature *)
Lemma poison_inner_first nf tol km K a v ws wsz es w Xw m w' Xw' j l : In j ws -> nth_error lips j = Some l -> fisnan o l = true -> es <> [] ->
  inner_loop o dm df pen ds d p_ nf tol km K a v ws wsz (0 :: es) w Xw m = Ret (w', Xw') -> untouched w ->
  untouched w' /\ poisoned Xw' /\ forall k, In k ws -> spoilt w' k.
Proof using NN NS Hup Hnew Hgr Hprox Hprox0 Hval.
  intros Hj Hl HN He E HU. cbn [inner_loop] in E. next E. destruct x as [w1 X1]. destruct (poison_steps _ _ _ _ _ Ex HU) as (HU1 & _ & B1).
  specialize (B1 j l Hj Hl HN). next E. destruct x as [[w2 X2] m2].
  assert (E2 : (w2, X2) = (w1, X1)).
  { destruct a; [exact (poison_accel _ _ _ _ _ _ _ _ B1 Ex0)|]. injection Ex0 as <- <- _. reflexivity. }
  injection E2 as -> ->. cbn [Nat.ltb Nat.leb andb] in E. destruct (poison_inner _ _ _ _ _ _ _ _ _ _ _ _ _ _ E HU1 B1) as (Q1 & Q2 & _ & Q3).
  split; [exact Q1|]. split; [exact Q2|]. auto.
Qed.
Lemma poison_outer nf s me tol K a v it : forall w Xw w', outer_loop o dm df pen srt ds d p_ nf s me tol K a v it w Xw = Ret w' ->
  untouched w -> poisoned Xw -> (forall j, spoilt w j) -> forall j, spoilt w' j.
Proof using NN NS Hup Hnew Hgr Hprox Hprox0 Hval.
  induction it as [|it IH]; intros w Xw w' E HU HP HS; cbn [outer_loop] in E; [injection E as <-; exact HS|].
  next E. destruct x as [kkt km]. destruct (fle o km tol); [injection E as <-; exact HS|]. next E. destruct x as [ws wsz]. next E. destruct x as [w1 X1].
  destruct (poison_inner _ _ _ _ _ _ _ _ _ _ _ _ _ _ Ex1 HU HP) as (Q1 & Q2 & Q3 & _). exact (IH _ _ _ E Q1 Q2 (fun j => Q3 j (HS j))).
Qed.
Lemma poison_cd (LF : float_laws o) (VS : valid_sort o srt) n p d0 s mi me tol K a v w' j l :
  dm_sh dm (design_matrix ds) n p -> pen_sh o pen p_ -> n_samples (dtargets ds) = n ->
  df_initialize df d0 ds = Ret d -> df_good df d ds n p -> p <= s -> 2 <= me ->
  nth_error lips j = Some l -> fisnan o l = true ->
  coordinate_descent o dm df pen srt ds d0 p_ s mi me tol K a v = Ret w' -> w' = repeat (f0 o) p \/ forall k, k < p -> spoilt w' k.
Proof using NN NS Hup Hnew Hgr Hprox Hprox0 Hval.
  intros HD HP Hns HI G Hs Hme Hj HN E. unfold coordinate_descent in E. rewrite (sh_nf _ _ _ _ HD), Hns, HI in E. cbn [bind] in E.
  set (s' := if p <? s then p else s) in *. assert (Hs' : s' = p) by (unfold s'; destruct (Nat.ltb_spec p s); lia). rewrite Hs' in E. clear s' Hs'.
  destruct mi as [|mi]; cbn [outer_loop] in E; [injection E as <-; left; reflexivity|].
  assert (Lj : j < p). { rewrite <- (proj1 G). apply nth_error_Some. congruence. }
  assert (HZ : length (vzeros o p) = p) by apply vzeros_length.
  assert (HU : untouched (vzeros o p)).
  { intros k x l' Hx _ _. apply nth_error_In in Hx. apply repeat_spec in Hx. exact Hx. }
  destruct (t_ocv o df pen n p ds p_ HP d (vzeros o p) (vzeros o n) (seq 0 p) G HZ (vzeros_length o n)) as (sc & mx & Es & HL & HNs);
    [intros k Hk; apply in_seq in Hk; lia|]. rewrite Es in E. cbn [bind] in E. rewrite seq_length in HL.
  destruct (fle o mx tol); [injection E as <-; left; reflexivity|]. right.
  rewrite construct_ws_select in E by lia. rewrite HZ in E.
  destruct (select_ok o srt LF (nzv o (vzeros o p)) p sc p VS (le_n p)) as (ws & Ews & [ND Hin] & HLw & _).
  { intros k Hk Ek. unfold nzv in Ek. apply negb_false_iff in Ek. destruct (HNs k k (nth k (vzeros o p) (f0 o))) as (x & Ex & Hx).
    - rewrite (nth_error_nth' _ 0) by (rewrite seq_length; auto). rewrite seq_nth; auto.
    - apply nth_error_nth'. lia.
    - auto.
    - rewrite (nth_error_nth _ _ _ Ex). auto. }
  rewrite Ews in E. cbn [bind] in E. rewrite Nat.max_l in HLw by lia.
  assert (Hall : forall k, k < p -> In k ws).
  { intros k Hk. assert (incl (seq 0 p) ws); [|apply H, in_seq; lia]. apply NoDup_length_incl; [exact ND|rewrite seq_length; lia|].
    intros q Hq. apply in_seq. specialize (Hin q Hq). lia. }
  next E. destruct x as [w1 X1]. destruct me as [|[|me]]; [lia|lia|]. cbn [seq] in Ex.
  assert (HE : 1 :: seq 2 me <> []) by discriminate.
  destruct (poison_inner_first _ _ _ _ _ _ _ _ _ _ _ _ _ _ _ _ (Hall j Lj) Hj HN HE Ex HU) as (U1 & P1 & S1).
  assert (S1' : forall k, spoilt w1 k).
  { intros k. destruct (Nat.lt_ge_cases k p) as [Hk|Hk]; [exact (S1 k (Hall k Hk))|].
    intros x l' _ Hl'. assert (k < length lips) by (apply nth_error_Some; congruence). rewrite (proj1 G) in H. lia. }
  intros k _. exact (poison_outer _ _ _ _ _ _ _ _ _ _ _ E U1 P1 S1' k).
Qed.
End Single.
