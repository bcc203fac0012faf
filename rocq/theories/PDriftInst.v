(** The drift of the maintained fit, for dense and for sparse designs. *)
From Coq Require Import List ZArith Bool Arith Lia Reals Lra Permutation.
From Flocq Require Import Core BinarySingleNaN Plus_error.
From Verif Require Import Ops Arr XR IEEE RSum SpecPen SpecRound SpecData SpecSolve SpecTrace SpecDrift PBase PLaws PFloat PRoundFit PRoundKkt PRoundTop PTrace PDrift PData PDataProps MUtils MDatasets MDatafits MPenalties MCd MHyper MEstimators.
Import ListNotations.
Open Scope R_scope.

Section I.
Context (prec emax : Z) (Hp : Prec_gt_0 prec) (Hm : Prec_lt_emax prec emax) (m : libm prec emax).
Local Notation bf := (binary_float prec emax).
Local Notation o := (ieee_ops prec emax Hp Hm m).
Local Notation fl := (fl prec emax).
Local Notation u := (urd prec).
Local Notation eta := (tiny prec emax).
Local Notation val := (val prec emax).
Local Notation atR := (atR prec emax).
Local Notation finite := (finite prec emax).
Local Notation drift := (drift prec emax).
Local Notation bsub := (bsub prec emax Hp Hm).
Local Notation bmul := (bmul prec emax Hp Hm).
Local Notation badd := (badd prec emax Hp Hm).
Local Notation col := (col prec emax Hp Hm m).

Lemma acc_err (a b : bf) (de : R) : finite (badd a b) -> Rabs (B2R b - de) <= rel u 2 * Rabs de + eta ->
  finite a /\ Rabs (B2R (badd a b) - B2R a - de) <= u * Rabs (B2R a) + rel u 3 * Rabs de + (1 + u) * eta.
Proof.
  intros F D6. destruct (add_fin prec emax Hp Hm _ _ F) as (F1 & F2 & E1). split; [exact F1|]. rewrite E1.
  assert (D3 : Rabs (fl (B2R a + B2R b) - (B2R a + B2R b)) <= u * Rabs (B2R a + B2R b)) by (apply fl_plus_err; [exact Hp|apply fmt_val|apply fmt_val]).
  pose proof (u_pos prec) as U. pose proof (eta_pos prec emax) as Q. pose proof (rel_pos prec 2) as R2. pose proof (Rabs_pos de) as Pd. pose proof (Rabs_pos (B2R a)) as PA.
  pose proof (abs_le_near _ _ _ D6) as D7. assert (D8 : Rabs (B2R a + B2R b) <= Rabs (B2R a) + (Rabs de + (rel u 2 * Rabs de + eta))). { eapply Rle_trans; [apply Rabs_triang|]. lra. }
  replace (fl (B2R a + B2R b) - B2R a - de) with ((fl (B2R a + B2R b) - (B2R a + B2R b)) + (B2R b - de)) by ring. eapply Rle_trans; [apply Rabs_triang|].
  assert (u * Rabs (B2R a + B2R b) <= u * (Rabs (B2R a) + (Rabs de + (rel u 2 * Rabs de + eta)))) by (apply Rmult_le_compat_l; lra).
  assert (EQ : rel u 3 = u + u * rel u 2 + rel u 2) by (unfold rel; ring). rewrite EQ. nra.
Qed.
Lemma upd_err (old new x a : bf) : finite (badd a (bmul (bsub new old) x)) -> finite a /\
  Rabs (B2R (badd a (bmul (bsub new old) x)) - B2R a - (B2R new - B2R old) * B2R x) <= u * Rabs (B2R a) + rel u 3 * Rabs ((B2R new - B2R old) * B2R x) + (1 + u) * eta.
Proof.
  intros F. apply acc_err; [exact F|]. destruct (add_fin prec emax Hp Hm _ _ F) as (F1 & F2 & E1). destruct (mul_fin prec emax Hp Hm _ _ F2) as (F3 & F4 & E2). destruct (sub_fin prec emax Hp Hm _ _ F3) as (F5 & F6 & E3). rewrite E2, E3.
  pose proof (fl_plus_err prec emax Hp (B2R new) (- B2R old) (fmt_val prec emax new) (generic_format_opp _ _ _ (fmt_val prec emax old))) as D1. change (B2R new + - B2R old) with (B2R new - B2R old) in D1.
  set (dl := B2R new - B2R old) in *. set (xi := B2R x) in *. pose proof (fl_err prec emax Hp (fl dl * xi)) as D2. pose proof (Rabs_pos xi) as Pxi. pose proof (u_pos prec) as U.
  assert (D4 : Rabs (fl dl * xi - dl * xi) <= u * Rabs (dl * xi)). { replace (fl dl * xi - dl * xi) with ((fl dl - dl) * xi) by ring. rewrite !Rabs_mult. replace (u * (Rabs dl * Rabs xi)) with ((u * Rabs dl) * Rabs xi) by ring. apply Rmult_le_compat_r; auto. }
  pose proof (abs_le_near _ _ _ D4) as D5. eapply Rle_trans; [exact (abs_mid _ _ _ _ _ D2 D4)|]. assert (u * Rabs (fl dl * xi) <= u * (Rabs (dl * xi) + u * Rabs (dl * xi))) by (apply Rmult_le_compat_l; lra). unfold rel. simpl. lra.
Qed.
Lemma prod_err (x w a : bf) : finite (badd a (bmul x w)) -> finite a /\
  Rabs (B2R (badd a (bmul x w)) - B2R a - B2R w * B2R x) <= u * Rabs (B2R a) + rel u 3 * Rabs (B2R w * B2R x) + (1 + u) * eta.
Proof.
  intros F. apply acc_err; [exact F|]. destruct (add_fin prec emax Hp Hm _ _ F) as (F1 & F2 & E1). destruct (mul_fin prec emax Hp Hm _ _ F2) as (F3 & F4 & E2). rewrite E2, (Rmult_comm (B2R x)).
  pose proof (fl_err prec emax Hp (B2R w * B2R x)) as D2. pose proof (u_pos prec) as U. pose proof (Rabs_pos (B2R w * B2R x)) as PP. eapply Rle_trans; [exact D2|]. unfold rel. assert (0 <= u * (u * Rabs (B2R w * B2R x))) by (repeat apply Rmult_le_pos; lra). simpl. nra.
Qed.
Lemma eq_diff (new old : bf) : feq o (bsub new old) (f0 o) = true -> B2R new = B2R old.
Proof.
  cbn [ieee_ops feq f0]. intros Ed.
  assert (Z : bsub new old = B754_zero true \/ bsub new old = B754_zero false). { destruct (bsub new old) as [[]|s| |s mm e b]; auto; exfalso; [destruct s; discriminate|discriminate|destruct s; discriminate]. }
  assert (FZ : is_finite (bsub new old) = true) by (destruct Z as [Z|Z]; rewrite Z; reflexivity). assert (VZ : B2R (bsub new old) = 0) by (destruct Z as [Z|Z]; rewrite Z; reflexivity).
  destruct (sub_fin prec emax Hp Hm _ _ FZ) as (_ & _ & E). rewrite VZ in E. symmetry in E.
  assert (B2R new + - B2R old = 0). { apply (round_plus_eq_0 radix2 (FLT_exp (3 - emax - prec) prec) ZnearestE (B2R new) (- B2R old)); [apply fmt_val|apply generic_format_opp, fmt_val|exact E]. }
  lra.
Qed.

(** *** any design whose update adds a multiple of the stored entry *)
Section G.
Context {DM D P : Type} (dm : DesignMatrix bf DM) (df : Datafit bf DM D) (pen : Penalty bf P) (ds : dataset DM bf) (d : D) (q : P) (p n : nat) (E : nat -> nat -> R).
Local Notation step := (cd_step o dm df pen ds d q).
Hypothesis (UP : forall Xw c j Xw', length Xw = n -> dm_update dm (design_matrix ds) Xw c j = Ret Xw' -> length Xw' = n /\
  forall i, (i < n)%nat -> (nth i Xw' (f0 o) = nth i Xw (f0 o) /\ E i j = 0) \/ exists x, B2R x = E i j /\ nth i Xw' (f0 o) = fadd o (nth i Xw (f0 o)) (fmul o c x)).
Lemma track w Xw w' Xw' j : length Xw = n -> step (w, Xw) j = Ret (w', Xw') -> length Xw' = n /\
  forall i, (i < n)%nat -> finite (nth i Xw' (f0 o)) -> finite (nth i Xw (f0 o)) /\
    Rabs (atR Xw' i - atR Xw i - (atR w' j - atR w j) * E i j) <= u * Rabs (atR Xw i) + rel u 3 * Rabs ((atR w' j - atR w j) * E i j) + (1 + u) * eta.
Proof using UP.
  intros LX H. pose proof (u_pos prec) as U. pose proof (eta_pos prec emax) as Q. pose proof (rel_pos prec 3) as R3.
  assert (SAME : forall i b, b = 0 -> Rabs (atR Xw i - atR Xw i - b) <= u * Rabs (atR Xw i) + rel u 3 * Rabs b + (1 + u) * eta).
  { intros i b ->. replace (atR Xw i - atR Xw i - 0) with 0 by ring. rewrite Rabs_R0. pose proof (Rabs_pos (atR Xw i)). assert (0 <= u * Rabs (atR Xw i)) by (apply Rmult_le_pos; lra). nra. }
  unfold cd_step in H. destruct (vget (df_step_size df d) j) as [lip|]; [|discriminate]. cbn [bind] in H. destruct (feq o lip (f0 o)).
  - injection H as <- <-. split; [exact LX|]. intros i Hi F. split; [exact F|]. apply SAME. ring.
  - destruct (vget w j) as [old|] eqn:Eo; [|discriminate]. cbn [bind] in H. destruct (df_gradient_j df d ds Xw j) as [g|]; [|discriminate]. cbn [bind] in H.
    set (new := pen_prox pen q (fsub o old (fdiv o g lip)) (fdiv o (f1 o) lip)) in *. destruct (vset w j new) as [w1|] eqn:Ew; [|discriminate]. cbn [bind] in H.
    destruct (vget_inv w j old Eo) as [Hj Eold]. specialize (Eold (f0 o)). rewrite vset_ok in Ew by exact Hj. injection Ew as <-.
    assert (SEL : atR (upd w j new) j = B2R new). { rewrite (atR_nth prec emax Hp Hm m), nth_upd, Nat.eqb_refl. apply Nat.ltb_lt in Hj. rewrite Hj. reflexivity. }
    assert (OLD : atR w j = B2R old) by (rewrite (atR_nth prec emax Hp Hm m); congruence).
    destruct (negb (feq o (fsub o new old) (f0 o))) eqn:Ed.
    + destruct (dm_update dm (design_matrix ds) Xw (fsub o new old) j) as [X1|] eqn:EU; [|discriminate]. cbn [bind] in H. injection H as <- <-. destruct (UP _ _ _ _ LX EU) as [L1 HU]. split; [exact L1|].
      intros i Hi F. destruct (HU i Hi) as [[EN EZ]|(x & Ex & EN)].
      * rewrite !(atR_nth prec emax Hp Hm m Xw), !(atR_nth prec emax Hp Hm m X1), EN, EZ. rewrite EN in F. split; [exact F|]. rewrite <- (atR_nth prec emax Hp Hm m Xw). apply SAME. ring.
      * rewrite EN in F. cbn [ieee_ops fadd fmul fsub] in F. destruct (upd_err old new x _ F) as [F1 B]. split; [exact F1|]. rewrite SEL, OLD, <- Ex, !(atR_nth prec emax Hp Hm m Xw), (atR_nth prec emax Hp Hm m X1), EN. exact B.
    + injection H as <- <-. split; [exact LX|]. intros i Hi F. split; [exact F|]. apply negb_false_iff in Ed. cbn [ieee_ops fsub] in Ed. apply eq_diff in Ed. rewrite SEL, OLD, Ed. apply SAME. ring.
Qed.
End G.

(** moves to a working set, against moves to all features *)
Section W.
Context (p : nat) (E : nat -> nat -> R) (w : list bf) (ws : list nat).
Hypothesis (ND : NoDup ws) (LT : forall j, In j ws -> (j < p)%nat) (OFF : forall j, ~ In j ws -> atR w j = 0).
Lemma rsum_support f : (forall j, ~ In j ws -> f j = 0) -> rsum (map f ws) = rsum (map f (seq 0 p)).
Proof using ND LT. intros H. change rsum with Rsum. rewrite (sum_support p f ws ND LT) by (intros; auto). symmetry. apply Sum_perm. apply Permutation_refl. Qed.
Lemma opening_carried i : carried E (map (fun j => (j, atR w j)) ws) i = carried E (opening prec emax p w) i.
Proof using ND LT OFF. unfold carried, opening. rewrite !map_map. cbn [fst snd]. apply (rsum_support (fun j => atR w j * E i j)). intros j Hj. rewrite OFF by exact Hj. ring. Qed.
Lemma opening_drift i : (length ws <= p)%nat -> drift E (map (fun j => (j, atR w j)) ws) i <= drift E (opening prec emax p w) i.
Proof using ND LT OFF.
  intros LW. unfold SpecDrift.drift. assert (ET : travelled E (opening prec emax p w) i = travelled E (map (fun j => (j, atR w j)) ws) i).
  { unfold travelled, opening. rewrite !map_map. cbn [fst snd]. symmetry. apply (rsum_support (fun j => Rabs (atR w j * E i j))). intros j Hj. rewrite OFF, Rmult_0_l, Rabs_R0 by exact Hj. reflexivity. }
  rewrite ET. unfold opening. rewrite !map_length, seq_length. pose proof (u_pos prec) as U. pose proof (eta_pos prec emax) as Q. set (k := length ws) in *.
  assert (P1 : (1 + u) ^ (k + 2) <= (1 + u) ^ (p + 2)) by (apply Rle_pow; [lra|lia]). assert (P2 : (1 + u) ^ k <= (1 + u) ^ p) by (apply Rle_pow; [lra|lia]). assert (P3 : INR k <= INR p) by (apply le_INR; exact LW).
  apply Rplus_le_compat; [apply Rmult_le_compat_r; [apply travelled_pos|unfold rel; lra]|]. apply Rmult_le_compat_r; [lra|]. apply Rmult_le_compat; [apply pos_INR|apply pow_le; lra|exact P3|exact P2].
Qed.
End W.

(** *** dense designs *)
Section Dense.
Context (RD : reduces prec emax Hp Hm m) (n p : nat) (X : mat bf) (t : targets bf) (SX : shaped n p X).
Lemma dense_up Xw c j Xw' : length Xw = n -> dense_update o X Xw c j = Ret Xw' -> length Xw' = n /\
  forall i, (i < n)%nat -> (nth i Xw' (f0 o) = nth i Xw (f0 o) /\ entR prec emax X i j = 0) \/ exists x, B2R x = entR prec emax X i j /\ nth i Xw' (f0 o) = fadd o (nth i Xw (f0 o)) (fmul o c x).
Proof using SX.
  intros LX H. unfold dense_update in H. destruct (mcol (f0 o) X j) as [cc|] eqn:Ec; [|discriminate]. cbn [bind] in H. unfold vaxpy in H.
  assert (Ecol : cc = col X j). { unfold mcol in Ec. destruct (j <? mnc X)%nat; [|discriminate]. injection Ec as <-. reflexivity. } subst cc.
  assert (EL : length Xw = length (col X j)) by (rewrite (col_len prec emax Hp Hm m n p X j SX); lia). rewrite EL, Nat.eqb_refl in H. injection H as <-.
  split; [unfold map2; rewrite map_length, combine_length; lia|]. intros i Hi. right. exists (nth i (col X j) (f0 o)). split; [apply ent_val|]. rewrite (nth_map2 _ Xw (col X j) i (f0 o) (f0 o) (f0 o)) by lia. reflexivity.
Qed.
Lemma dense_re s : recomputed o (dense_dm o) (Dataset X t) p n s -> ok prec emax Hp Hm m p n (entR prec emax X) (opening prec emax p (fst s)) s.
Proof using RD SX.
  intros (ws & ND & LW & Lw & OFF & EX). cbn [design_matrix dense_dm dm_extrap] in EX. unfold dense_extrap in EX. apply mapM_inv in EX.
  destruct SX as (S1 & S2 & S3 & S4). assert (LX : length (snd s) = n). { rewrite <- S1, <- S3. clear - EX. induction EX; cbn [length]; congruence. }
  split; [exact Lw|]. split; [exact LX|]. split; [intros i; apply carried_opening|]. intros i Hi F.
  assert (ROW : exists ts, mapM (fun j => a <- vget (nth i (mrows X) []) j ;; b <- vget (fst s) j ;; Ret (fmul o a b)) ws = Ret ts /\ nth i (snd s) (f0 o) = isum o ts).
  { assert (Hi' : (i < length (mrows X))%nat) by lia. clear - EX Hi'. revert i Hi'. induction EX as [|row r rows rs H HF IH]; intros i Hi'; [simpl in Hi'; lia|]. destruct i as [|i]; [|cbn [nth]; apply IH; simpl in Hi'; lia].
    cbn [nth]. destruct (mapM _ ws) as [ts|]; [|discriminate]. cbn [bind] in H. injection H as <-. exists ts. auto. }
  destruct ROW as (ts & ET & EI). rewrite Forall_forall in S4. assert (LR : length (nth i (mrows X) []) = p) by (rewrite <- S2; apply S4, nth_In; lia). set (row := nth i (mrows X) []) in *.
  assert (TS : ts = map2 bmul (map (fun j => nth j row (f0 o)) ws) (map (fun j => nth j (fst s) (f0 o)) ws) /\ forall j, In j ws -> (j < p)%nat).
  { apply mapM_inv in ET. clear - ET LR Lw. induction ET as [|j v ws ts H HF IH]; [split; [reflexivity|intros j []]|]. destruct (vget row j) as [a|] eqn:Ea; [|discriminate]. cbn [bind] in H. destruct (vget (fst s) j) as [b|] eqn:Eb; [|discriminate]. cbn [bind] in H. injection H as <-.
    destruct IH as [-> IH]. destruct (vget_inv _ _ _ Ea) as [Hj Ha]. destruct (vget_inv _ _ _ Eb) as [_ Hb]. split; [|intros k [<-|Hk]; [lia|exact (IH k Hk)]]. cbn [map]. rewrite (Ha (f0 o)), (Hb (f0 o)). reflexivity. }
  destruct TS as [-> LT]. assert (OFF' : forall j, ~ In j ws -> atR (fst s) j = 0). { intros j Hj. rewrite (atR_nth prec emax Hp Hm m), (OFF j Hj). reflexivity. }
  rewrite <- (opening_carried p (entR prec emax X) (fst s) ws ND LT OFF' i). eapply Rle_trans; [|exact (opening_drift p (entR prec emax X) (fst s) ws ND LT OFF' i LW)].
  rewrite (atR_nth prec emax Hp Hm m (snd s)), EI in *. set (a := map (fun j => nth j row (f0 o)) ws) in *. set (b := map (fun j => nth j (fst s) (f0 o)) ws) in *.
  pose proof (proj1 RD (map2 bmul a b)) as TSUM. assert (LAB : length a = length b) by (unfold a, b; rewrite !map_length; reflexivity).
  destruct (tree_dot_err prec emax Hp Hm a b _ LAB TSUM F) as (_ & _ & B).
  assert (EE : forall j, In j ws -> B2R (nth j row (f0 o)) = entR prec emax X i j). { intros j Hj. rewrite <- (ent_val prec emax Hp Hm m). unfold PRoundFit.col, colv. f_equal. change (map (fun r => nth j r (f0 o)) (mrows X)) with (map (fun r : list bf => nth j r (f0 o)) (mrows X)). rewrite (nth_indep (map (fun r : list bf => nth j r (f0 o)) (mrows X)) (f0 o) (nth j (@nil bf) (f0 o))) by (rewrite map_length; lia). rewrite (map_nth (fun r => nth j r (f0 o))). reflexivity. }
  assert (DOT : dotp (val a) (val b) = carried (entR prec emax X) (map (fun j => (j, atR (fst s) j)) ws) i /\ adot (val a) (val b) = travelled (entR prec emax X) (map (fun j => (j, atR (fst s) j)) ws) i).
  { unfold a, b, carried, travelled. clear - EE. induction ws as [|j ws IH]; [split; reflexivity|]. destruct (IH (fun j Hj => EE j (or_intror Hj))) as [I1 I2]. unfold SpecRound.val in *. unfold rsum in *. cbn [map dotp adot fold_right fst snd] in *. rewrite I1, I2, (EE j (or_introl eq_refl)), (atR_nth prec emax Hp Hm m). rewrite (Rmult_comm (B2R (nth j (fst s) (f0 o)))). split; reflexivity. }
  destruct DOT as [DT AD]. rewrite DT, AD in B. eapply Rle_trans; [exact B|]. unfold SpecDrift.drift. rewrite map_length. assert (LA : length a = length ws) by (unfold a; apply map_length). rewrite LA.
  pose proof (u_pos prec) as U. pose proof (eta_pos prec emax) as Q. apply Rplus_le_compat; [|right; ring]. apply Rmult_le_compat_r; [apply travelled_pos|]. unfold rel. apply Rplus_le_compat_r. apply Rle_pow; [lra|lia].
Qed.
End Dense.

(** *** sparse designs *)
Section Sparse.
Context (n p : nat) (cs : nat -> list (nat * bf)) (X : csc bf) (t : targets bf) (ST : stores prec emax n p cs X).
Local Notation E := (storedR prec emax cs).
Lemma range_lt j r : csc_range X j = Ret r -> (j < p)%nat.
Proof using ST.
  unfold csc_range. destruct (vget (cindptr X) j); [|discriminate]. cbn [bind]. destruct (vget (cindptr X) (S j)) as [h|] eqn:Eh; [|discriminate]. intros _. destruct (vget_inv _ _ _ Eh) as [H _]. rewrite (proj1 ST) in H. lia.
Qed.
Lemma stored_range j : (j < p)%nat -> exists zs, csc_range X j = Ret zs /\ Forall2 (fun z e => vgetz (cindices X) z = Ret (Z.of_nat (fst e)) /\ vgetz (cdata X) z = Ret (snd e)) zs (cs j).
Proof using ST.
  intros Hj. destruct (proj2 ST j Hj) as [(lo & H1 & H2 & H3) _]. unfold csc_range, vget. rewrite H1, H2. cbn [bind]. eexists. split; [reflexivity|].
  unfold zrange. replace (Z.to_nat (Z.of_nat (lo + length (cs j)) - Z.of_nat lo)) with (length (cs j)) by lia.
  apply Forall2_seq. intros k e Hk. destruct (H3 k e Hk) as [H4 H5]. unfold vgetz.
  rewrite (proj2 (Z.ltb_ge _ _)) by lia. replace (Z.to_nat (Z.of_nat lo + Z.of_nat (0 + k))) with (lo + k)%nat by lia.
  unfold vget. rewrite H4, H5. auto.
Qed.
Lemma add_loop (h : bf -> bf) es : forall a a', NoDup (map fst es) ->
  foldM (fun a e => v <- vgetz a (Z.of_nat (fst e)) ;; vsetz a (Z.of_nat (fst e)) (fadd o v (h (snd e)))) es a = Ret a' ->
  length a' = length a /\ forall i, (~ In i (map fst es) /\ nth i a' (f0 o) = nth i a (f0 o)) \/ exists e, In e es /\ fst e = i /\ nth i a' (f0 o) = fadd o (nth i a (f0 o)) (h (snd e)).
Proof.
  induction es as [|[k x] es IH]; intros a a' ND H; cbn [foldM] in H; [injection H as <-; split; [reflexivity|intros i; left; split; [intros []|reflexivity]]|].
  cbn [fst snd map] in H, ND. apply NoDup_cons_iff in ND as [Nk ND]. unfold vgetz at 1, vsetz at 1 in H. rewrite (proj2 (Z.ltb_ge _ _)) in H by lia. rewrite Nat2Z.id in H. destruct (vget a k) as [v|] eqn:Ev; [|discriminate]. cbn [bind] in H.
  destruct (vget_inv _ _ _ Ev) as [Hk Hv]. rewrite vset_ok in H by exact Hk. cbn [bind] in H. destruct (IH _ _ ND H) as [L HI]. rewrite upd_length in L. split; [exact L|]. intros i. destruct (HI i) as [[N1 N2]|(e & I1 & I2 & I3)].
  - rewrite nth_upd in N2. destruct (i =? k)%nat eqn:Ei.
    + apply Nat.eqb_eq in Ei. subst k. right. exists (i, x). split; [left; reflexivity|]. split; [reflexivity|]. cbn [snd]. rewrite N2, (Hv (f0 o)). apply Nat.ltb_lt in Hk. rewrite Hk. reflexivity.
    + left. split; [|exact N2]. apply Nat.eqb_neq in Ei. intros [Q|Q]; [cbn [fst] in Q; congruence|contradiction].
  - right. exists e. split; [right; exact I1|]. split; [exact I2|]. rewrite I3, nth_upd. destruct (i =? k)%nat eqn:Ei; [|reflexivity]. apply Nat.eqb_eq in Ei. exfalso. apply Nk. rewrite <- Ei, <- I2. apply in_map. exact I1.
Qed.
Lemma stored_off i j : ~ In i (map fst (cs j)) -> E i j = 0.
Proof.
  unfold SpecDrift.storedR. induction (cs j) as [|e es IH]; cbn [map]; intros H; [reflexivity|]. unfold rsum in *. cbn [fold_right]. rewrite IH by (intros Q; apply H; right; exact Q). destruct (fst e =? i)%nat eqn:Ei; [apply Nat.eqb_eq in Ei; exfalso; apply H; left; exact Ei|lra].
Qed.
Lemma stored_on j e : NoDup (map fst (cs j)) -> In e (cs j) -> E (fst e) j = B2R (snd e).
Proof.
  unfold SpecDrift.storedR. induction (cs j) as [|a es IH]; cbn [map]; intros ND H; [contradiction|]. apply NoDup_cons_iff in ND as [Na ND]. unfold rsum in *. cbn [fold_right]. destruct H as [->|H].
  - rewrite Nat.eqb_refl. enough (Z : fold_right Rplus 0 (map (fun a => if (fst a =? fst e)%nat then B2R (snd a) else 0) es) = 0) by lra. clear IH ND. induction es as [|b es IH]; [reflexivity|]. cbn [map fold_right] in *. rewrite IH by (intros Q; apply Na; right; exact Q). destruct (fst b =? fst e)%nat eqn:Eb; [|lra]. apply Nat.eqb_eq in Eb. exfalso. apply Na. left. exact Eb.
  - rewrite (IH ND H). destruct (fst a =? fst e)%nat eqn:Ea; [|lra]. apply Nat.eqb_eq in Ea. exfalso. apply Na. rewrite Ea. apply in_map. exact H.
Qed.
Lemma sparse_up Xw c j Xw' : length Xw = n -> sparse_update o X Xw c j = Ret Xw' -> length Xw' = n /\
  forall i, (i < n)%nat -> (nth i Xw' (f0 o) = nth i Xw (f0 o) /\ E i j = 0) \/ exists x, B2R x = E i j /\ nth i Xw' (f0 o) = fadd o (nth i Xw (f0 o)) (fmul o c x).
Proof using ST.
  intros LX H. unfold sparse_update in H. destruct (csc_range X j) as [r|] eqn:Er; [|discriminate]. cbn [bind] in H. pose proof (range_lt j r Er) as Hj. destruct (stored_range j Hj) as (zs & Ez & FZ). rewrite Er in Ez. injection Ez as <-.
  rewrite (foldM_F2 _ _ (fun a e => v <- vgetz a (Z.of_nat (fst e)) ;; vsetz a (Z.of_nat (fst e)) (fadd o v (fmul o c (snd e)))) _ _ FZ) in H by (intros s z e [Q1 Q2] _; rewrite Q1, Q2; reflexivity).
  destruct (proj2 ST j Hj) as (_ & ND & _). destruct (add_loop (fmul o c) _ _ _ ND H) as [L HI]. split; [lia|]. intros i _. destruct (HI i) as [[N1 N2]|(e & I1 & I2 & I3)].
  - left. split; [exact N2|exact (stored_off i j N1)].
  - right. exists (snd e). split; [|exact I3]. rewrite <- I2. symmetry. exact (stored_on j e ND I1).
Qed.
Lemma ext_loop w : forall ws M a a', length a = n -> (forall i, (i < n)%nat -> finite (nth i a (f0 o)) -> Rabs (atR a i - carried E M i) <= drift E M i) ->
  foldM (fun acc j => r <- csc_range X j ;; foldM (fun acc idx => i <- vgetz (cindices X) idx ;; x <- vgetz (cdata X) idx ;; w <- vget w j ;; v <- vgetz acc i ;; vsetz acc i (fadd o v (fmul o x w))) r acc) ws a = Ret a' ->
  length a' = n /\ (forall j, In j ws -> (j < p)%nat) /\ forall i, (i < n)%nat -> finite (nth i a' (f0 o)) -> let M' := rev (map (fun j => (j, atR w j)) ws) ++ M in Rabs (atR a' i - carried E M' i) <= drift E M' i.
Proof using ST.
  induction ws as [|j ws IH]; intros M a a' LA HB H; cbn [foldM] in H; [injection H as <-; split; [exact LA|]; split; [intros j []|exact HB]|].
  destruct (csc_range X j) as [r|] eqn:Er; [|discriminate]. cbn [bind] in H. pose proof (range_lt j r Er) as Hj. destruct (stored_range j Hj) as (zs & Ez & FZ). rewrite Er in Ez. injection Ez as <-.
  destruct (foldM _ r a) as [a1|] eqn:E1; [|discriminate]. cbn [bind] in H. destruct (proj2 ST j Hj) as (_ & ND & _).
  assert (C1 : length a1 = length a /\ forall i, (~ In i (map fst (cs j)) /\ nth i a1 (f0 o) = nth i a (f0 o)) \/ exists e, In e (cs j) /\ fst e = i /\ nth i a1 (f0 o) = fadd o (nth i a (f0 o)) (fmul o (snd e) (nth j w (f0 o)))).
  { apply (add_loop (fun x => fmul o x (nth j w (f0 o))) _ _ _ ND). destruct (vget w j) as [wj|] eqn:Ew.
    - destruct (vget_inv _ _ _ Ew) as [_ Hw]. rewrite <- E1. symmetry. apply (foldM_F2 _ _ _ _ _ FZ). intros s z e [Q1 Q2] _. rewrite Q1, Q2. cbn [bind]. rewrite (Hw (f0 o)). reflexivity.
    - destruct FZ as [|z e zs es [Q1 Q2] FZ]; [exact E1|]. cbn [foldM] in E1. rewrite Q1, Q2 in E1. cbn [bind] in E1. discriminate. }
  destruct C1 as [L1 C1]. assert (HB1 : forall i, (i < n)%nat -> finite (nth i a1 (f0 o)) -> Rabs (atR a1 i - carried E ((j, atR w j) :: M) i) <= drift E ((j, atR w j) :: M) i).
  { intros i Hi F. unfold carried. cbn [map rsum fold_right fst snd]. fold (rsum (map (fun v : nat * R => snd v * E i (fst v)) M)). fold (carried E M i).
    pose proof (u_pos prec) as U. pose proof (eta_pos prec emax) as Q. pose proof (rel_pos prec 3) as R3.
    assert (B : finite (nth i a (f0 o)) /\ Rabs (atR a1 i - atR a i - atR w j * E i j) <= u * Rabs (atR a i) + rel u 3 * Rabs (atR w j * E i j) + (1 + u) * eta).
    { rewrite !(atR_nth prec emax Hp Hm m). destruct (C1 i) as [[N1 N2]|(e & I1 & I2 & I3)].
      - rewrite N2 in F |- *. split; [exact F|]. rewrite (stored_off i j N1), Rmult_0_r. replace (B2R (nth i a (f0 o)) - B2R (nth i a (f0 o)) - 0) with 0 by ring. rewrite Rabs_R0. pose proof (Rabs_pos (B2R (nth i a (f0 o)))). assert (0 <= u * Rabs (B2R (nth i a (f0 o)))) by (apply Rmult_le_pos; lra). nra.
      - rewrite I3 in F |- *. assert (EV : E i j = B2R (snd e)) by (rewrite <- I2; exact (stored_on j e ND I1)). rewrite EV. exact (prod_err (snd e) _ _ F). }
    destruct B as [F0 B]. exact (drift_cons prec emax E M i j _ _ _ (HB i Hi F0) B). }
  destruct (IH ((j, atR w j) :: M) a1 a' ltac:(lia) HB1 H) as (A1 & A2 & A3). split; [exact A1|]. split; [intros k [<-|Hk]; [exact Hj|exact (A2 k Hk)]|]. intros i Hi F. cbv zeta. cbn [map rev]. rewrite <- app_assoc. exact (A3 i Hi F).
Qed.
Lemma sparse_re s : recomputed o (sparse_dm o) (Dataset X t) p n s -> ok prec emax Hp Hm m p n E (opening prec emax p (fst s)) s.
Proof using ST.
  intros (ws & ND & LW & Lw & OFF & EX). cbn [design_matrix sparse_dm dm_extrap] in EX. unfold sparse_extrap in EX.
  destruct (ext_loop (fst s) ws [] (vzeros o n) (snd s)) as (LX & LT & HB); [apply repeat_length| |exact EX|].
  - intros i _ _. unfold vzeros. rewrite atR_zeros. unfold carried. cbn [map rsum fold_right]. rewrite Rminus_0_r, Rabs_R0. apply drift_pos.
  - split; [exact Lw|]. split; [exact LX|]. split; [intros i; apply carried_opening|]. intros i Hi F.
    assert (OFF' : forall j, ~ In j ws -> atR (fst s) j = 0). { intros j Hj. rewrite (atR_nth prec emax Hp Hm m), (OFF j Hj). reflexivity. }
    rewrite <- (opening_carried p E (fst s) ws ND LT OFF' i). eapply Rle_trans; [|exact (opening_drift p E (fst s) ws ND LT OFF' i LW)].
    specialize (HB i Hi F). cbv zeta in HB. rewrite app_nil_r in HB. set (M := map (fun j => (j, atR (fst s) j)) ws) in *.
    assert (E1 : carried E (rev M) i = carried E M i) by (apply rsum_perm, Permutation_map, Permutation_sym, Permutation_rev).
    assert (E2 : drift E (rev M) i = drift E M i). { unfold SpecDrift.drift, travelled. rewrite rev_length. f_equal. f_equal. apply rsum_perm, Permutation_map, Permutation_sym, Permutation_rev. }
    rewrite E1, E2 in HB. exact HB.
Qed.
End Sparse.

(** *** C82 *)
Lemma c82_dense {D P} (RD : reduces prec emax Hp Hm m) (df : Datafit bf (mat bf) D) (pen : Penalty bf P) n p X t d q js s0 s : shaped n p X ->
  origin prec emax o (dense_dm o) (Dataset X t) p n s0 -> foldM (cd_step o (dense_dm o) df pen (Dataset X t) d q) js s0 = Ret s ->
  tracks prec emax (entR prec emax X) p n (history prec emax o (dense_dm o) df pen (Dataset X t) d q p js s0) s.
Proof.
  intros SX HO HS. apply (ok_tracks prec emax Hp Hm m). apply ok_history; [|exact (dense_re RD n p X t SX)|exact HO|exact HS].
  intros w Xw w' Xw' j. apply (track (dense_dm o) df pen (Dataset X t) d q n (entR prec emax X)). intros Y c k Y'. exact (dense_up n p X SX Y c k Y').
Qed.
Lemma c82_sparse {D P} (df : Datafit bf (csc bf) D) (pen : Penalty bf P) n p cs X t d q js s0 s : stores prec emax n p cs X ->
  origin prec emax o (sparse_dm o) (Dataset X t) p n s0 -> foldM (cd_step o (sparse_dm o) df pen (Dataset X t) d q) js s0 = Ret s ->
  tracks prec emax (storedR prec emax cs) p n (history prec emax o (sparse_dm o) df pen (Dataset X t) d q p js s0) s.
Proof.
  intros ST HO HS. apply (ok_tracks prec emax Hp Hm m). apply ok_history; [|exact (sparse_re n p cs X t ST)|exact HO|exact HS].
  intros w Xw w' Xw' j. apply (track (sparse_dm o) df pen (Dataset X t) d q n (storedR prec emax cs)). intros Y c k Y'. exact (sparse_up n p cs X ST Y c k Y').
Qed.
End I.
