(** Lemmas behind the property theorems on the drift of the maintained fit. *)
From Coq Require Import List ZArith Bool Arith Lia Reals Lra Permutation.
From Flocq Require Import Core BinarySingleNaN.
From Verif Require Import Ops Arr XR IEEE RSum SpecPen SpecRound SpecData SpecSolve SpecTrace SpecDrift PBase PLaws PFloat PRoundFit PRoundKkt PRoundTop PTrace PCalc MUtils MDatasets MDatafits MPenalties MCd MHyper MEstimators.
Import ListNotations.
Open Scope R_scope.

Section I.
Context (prec emax : Z) (Hp : Prec_gt_0 prec) (Hm : Prec_lt_emax prec emax) (m : libm prec emax).
Local Notation bf := (binary_float prec emax).
Local Notation o := (ieee_ops prec emax Hp Hm m).
Local Notation u := (urd prec).
Local Notation eta := (tiny prec emax).
Local Notation val := (val prec emax).
Local Notation atR := (atR prec emax).
Local Notation finite := (finite prec emax).
Local Notation drift := (drift prec emax).

Lemma rsum_app' a b : rsum (a ++ b) = rsum a + rsum b.
Proof. unfold rsum. induction a; cbn [app fold_right]; [lra|rewrite IHa; lra]. Qed.
Lemma rsum_perm a b : Permutation a b -> rsum a = rsum b.
Proof. unfold rsum. induction 1; cbn [fold_right]; try lra. Qed.
Lemma atR_nth w j : atR w j = B2R (nth j w (f0 o)).
Proof. apply nth_val. Qed.
Lemma atR_out w j : (length w <= j)%nat -> atR w j = 0.
Proof. intros H. rewrite atR_nth, nth_overflow by exact H. reflexivity. Qed.

(** *** any design *)
Section G.
Context {DM D P : Type} (dm : DesignMatrix bf DM) (df : Datafit bf DM D) (pen : Penalty bf P) (ds : dataset DM bf) (d : D) (q : P) (p n : nat) (E : nat -> nat -> R).
Local Notation step := (cd_step o dm df pen ds d q).
Hypothesis (TR : forall w Xw w' Xw' j, length Xw = n -> step (w, Xw) j = Ret (w', Xw') -> length Xw' = n /\
  forall i, (i < n)%nat -> finite (nth i Xw' (f0 o)) -> finite (nth i Xw (f0 o)) /\
    Rabs (atR Xw' i - atR Xw i - (atR w' j - atR w j) * E i j) <= u * Rabs (atR Xw i) + rel u 3 * Rabs ((atR w' j - atR w j) * E i j) + (1 + u) * eta).
Definition carried (M : list move) (i : nat) : R := rsum (map (fun v => snd v * E i (fst v)) M).
Definition ok (M : list move) (s : list bf * list bf) : Prop :=
  length (fst s) = p /\ length (snd s) = n /\ (forall i, carried M i = lin p E (atR (fst s)) i) /\
  forall i, (i < n)%nat -> finite (nth i (snd s) (f0 o)) -> Rabs (atR (snd s) i - carried M i) <= drift E M i.

Lemma step_other w Xw j w' Xw' k : step (w, Xw) j = Ret (w', Xw') -> k <> j -> atR w' k = atR w k.
Proof.
  intros H Hk. rewrite !atR_nth. f_equal. unfold cd_step in H. destruct (vget (df_step_size df d) j); [|discriminate]. cbn [bind] in H. destruct (feq o _ _); [injection H as <- _; reflexivity|].
  destruct (vget w j); [|discriminate]. cbn [bind] in H. destruct (df_gradient_j _ _ _ _ _); [|discriminate]. cbn [bind] in H. destruct (vset w j _) as [w2|] eqn:Ew; [|discriminate]. cbn [bind] in H.
  assert (w' = w2). { destruct (negb _); [destruct (dm_update _ _ _ _ _); [|discriminate]; cbn [bind] in H|]; injection H as <- _; reflexivity. } subst w2.
  unfold vset in Ew. destruct (j <? length w)%nat; [|discriminate]. injection Ew as <-. rewrite nth_upd. destruct (k =? j)%nat eqn:Ek; [apply Nat.eqb_eq in Ek; congruence|reflexivity].
Qed.
Lemma travelled_pos M i : 0 <= travelled E M i.
Proof. unfold travelled, rsum. induction M; cbn [map fold_right]; [lra|]. pose proof (Rabs_pos (snd a * E i (fst a))). lra. Qed.
Lemma carried_le M i : Rabs (carried M i) <= travelled E M i.
Proof.
  unfold carried, travelled, rsum. induction M as [|v M IH]; cbn [map fold_right]; [rewrite Rabs_R0; lra|]. eapply Rle_trans; [apply Rabs_triang|]. lra.
Qed.
Lemma drift_cons M i j dl x0 x1 : Rabs (x0 - carried M i) <= drift E M i -> Rabs (x1 - x0 - dl * E i j) <= u * Rabs x0 + rel u 3 * Rabs (dl * E i j) + (1 + u) * eta ->
  Rabs (x1 - (dl * E i j + carried M i)) <= drift E ((j, dl) :: M) i.
Proof.
  intros HB B. unfold carried, SpecDrift.drift, travelled in *. cbn [map rsum fold_right fst snd length]. fold (rsum (map (fun v : nat * R => Rabs (snd v * E i (fst v))) M)).
    pose proof (carried_le M i) as CL. unfold carried, travelled in CL. pose proof (travelled_pos M i) as TP. unfold travelled in TP.
    set (S0 := rsum (map (fun v : nat * R => snd v * E i (fst v)) M)) in *. set (A := rsum (map (fun v : nat * R => Rabs (snd v * E i (fst v))) M)) in *.
    set (de := dl * E i j) in *. set (k := length M) in *.
    pose proof (u_pos prec) as U. pose proof (eta_pos prec emax) as Q. pose proof (Rabs_pos de) as Pd. set (W := (1 + u) ^ k) in *. assert (W1 : 1 <= W) by (unfold W; apply pow_R1_Rle; lra).
    assert (R2 : rel u (k + 2) = W * (1 + u) ^ 2 - 1) by (unfold rel, W; rewrite pow_add; reflexivity). assert (R3 : rel u (S k + 2) = W * (1 + u) ^ 3 - 1) by (unfold rel, W; rewrite pow_add; simpl; ring).
    assert (R4 : rel u 3 = (1 + u) ^ 3 - 1) by reflexivity. rewrite R2 in HB. rewrite R3. rewrite R4 in B. rewrite S_INR. assert (Pk : 0 <= INR k) by apply pos_INR. change ((1 + u) ^ S k) with ((1 + u) * W).
    assert (X0 : Rabs x0 <= A + ((W * (1 + u) ^ 2 - 1) * A + INR k * W * eta)). { replace x0 with ((x0 - S0) + S0) by ring. eapply Rle_trans; [apply Rabs_triang|]. lra. }
    replace (x1 - (de + S0)) with ((x1 - x0 - de) + (x0 - S0)) by ring. eapply Rle_trans; [apply Rabs_triang|].
    assert (Y : u * Rabs x0 <= u * (A + ((W * (1 + u) ^ 2 - 1) * A + INR k * W * eta))) by (apply Rmult_le_compat_l; lra).
    assert (Z1 : ((1 + u) ^ 3 - 1) * Rabs de <= (W * (1 + u) ^ 3 - 1) * Rabs de). { apply Rmult_le_compat_r; [exact Pd|]. assert (0 <= (1 + u) ^ 3) by (apply pow_le; lra). nra. }
    assert (Z2 : (1 + u) * eta <= (1 + u) * W * eta). { apply Rmult_le_compat_r; [lra|]. nra. }
    apply Rle_trans with ((u * (A + ((W * (1 + u) ^ 2 - 1) * A + INR k * W * eta)) + (W * (1 + u) ^ 3 - 1) * Rabs de + (1 + u) * W * eta) + ((W * (1 + u) ^ 2 - 1) * A + INR k * W * eta)); [lra|].
    right. ring.
Qed.
Lemma ok_step M w Xw j w' Xw' : ok M (w, Xw) -> step (w, Xw) j = Ret (w', Xw') -> ok ((j, atR w' j - atR w j) :: M) (w', Xw').
Proof using TR.
  intros (Lw & LX & HL & HB) ES. cbn [fst snd] in *. destruct (TR w Xw w' Xw' j LX ES) as [LX' HT]. assert (Lw' : length w' = p) by (rewrite <- Lw; exact (step_wlen o dm df pen ds d q w Xw j w' Xw' ES)).
  split; [exact Lw'|]. split; [exact LX'|]. cbn [fst snd]. split.
  - intros i. unfold carried. cbn [map rsum fold_right fst snd]. fold (rsum (map (fun v : nat * R => snd v * E i (fst v)) M)). fold (carried M i). rewrite HL. unfold lin. destruct (Nat.lt_ge_cases j p) as [Hj|Hj].
    + rewrite (Sum_upd p (fun k => E i k * atR w' k) (fun k => E i k * atR w k) j Hj); [ring|]. intros k _ Hk. rewrite (step_other w Xw j w' Xw' k ES Hk). reflexivity.
    + rewrite (atR_out w j), (atR_out w' j) by lia. rewrite Rminus_eq_0, Rmult_0_l, Rplus_0_l. apply Sum_ext. intros k Hk. rewrite (step_other w Xw j w' Xw' k ES) by lia. reflexivity.
  - intros i Hi F. destruct (HT i Hi F) as [F0 B]. specialize (HB i Hi F0). unfold carried. cbn [map rsum fold_right fst snd]. fold (rsum (map (fun v : nat * R => snd v * E i (fst v)) M)). fold (carried M i).
    exact (drift_cons M i j _ _ _ HB B).
Qed.
Lemma ok_perm M M' s : Permutation M M' -> ok M s -> ok M' s.
Proof.
  intros PM (A & B & C & G). split; [exact A|]. split; [exact B|].
  assert (E1 : forall i, carried M' i = carried M i) by (intros i; apply rsum_perm, Permutation_map, Permutation_sym, PM).
  assert (E2 : forall i, drift E M' i = drift E M i). { intros i. unfold SpecDrift.drift, travelled. rewrite <- (Permutation_length PM). f_equal. f_equal. apply rsum_perm, Permutation_map, Permutation_sym, PM. }
  split; intros i; rewrite E1; [exact (C i)|rewrite E2; exact (G i)].
Qed.
Lemma ok_moves js : forall M s s', ok M s -> foldM step js s = Ret s' -> ok (moves prec emax o dm df pen ds d q js s ++ M) s'.
Proof using TR.
  induction js as [|j js IH]; intros M s s' H ES; cbn [foldM moves] in *; [injection ES as <-; exact H|].
  destruct (step s j) as [s1|] eqn:E1; [|discriminate]. cbn [bind] in ES. destruct s as [w Xw], s1 as [w1 X1]. pose proof (ok_step M w Xw j w1 X1 H E1) as H1.
  apply (ok_perm (moves prec emax o dm df pen ds d q js (w1, X1) ++ (j, atR w1 j - atR w j) :: M)); [|exact (IH _ _ _ H1 ES)]. cbn [fst app]. apply Permutation_sym, Permutation_middle.
Qed.
Lemma carried_opening w i : carried (opening prec emax p w) i = lin p E (atR w) i.
Proof.
  unfold carried, opening, lin, Sum, tab. rewrite map_map. cbn [fst snd]. unfold Rsum, rsum. f_equal. apply map_ext. intros. ring.
Qed.
Lemma drift_pos M i : 0 <= drift E M i.
Proof.
  unfold SpecDrift.drift. pose proof (travelled_pos M i). pose proof (rel_pos prec (length M + 2)). pose proof (u_pos prec). pose proof (eta_pos prec emax). apply Rplus_le_le_0_compat; apply Rmult_le_pos; auto; try lra.
  apply Rmult_le_pos; [apply pos_INR|apply pow_le; lra].
Qed.
Lemma atR_zeros k i : atR (repeat (f0 o) k) i = 0.
Proof. rewrite atR_nth. destruct (nth_in_or_default i (repeat (f0 o) k) (f0 o)) as [H|H]; [rewrite (repeat_spec _ _ _ H)|rewrite H]; reflexivity. Qed.
Lemma ok_zero : ok (opening prec emax p (repeat (f0 o) p)) (zero_state o p n).
Proof.
  unfold zero_state. split; [apply repeat_length|]. split; [apply repeat_length|]. cbn [fst snd]. split; [intros i; apply carried_opening|]. intros i _ _. rewrite carried_opening, atR_zeros.
  replace (lin p E (atR (repeat (f0 o) p)) i) with 0; [rewrite Rminus_0_r, Rabs_R0; apply drift_pos|]. symmetry. unfold lin. apply Sum_zero. intros k _. rewrite atR_zeros. ring.
Qed.
Hypothesis (RC : forall s, recomputed o dm ds p n s -> ok (opening prec emax p (fst s)) s).
Lemma ok_history s0 js s : origin prec emax o dm ds p n s0 -> foldM step js s0 = Ret s -> ok (history prec emax o dm df pen ds d q p js s0) s.
Proof using TR RC. intros HO HS. apply (ok_moves js _ s0 s); [|exact HS]. destruct HO as [->|H]; [exact ok_zero|exact (RC s0 H)]. Qed.
Lemma ok_tracks M s : ok M s -> tracks prec emax E p n M s.
Proof.
  intros (_ & B & C & G). split; [exact B|]. intros i x Hx F. assert (Hi : (i < n)%nat) by (rewrite <- B; apply nth_error_Some; congruence).
  pose proof (nth_error_nth _ _ (f0 o) Hx) as EN. specialize (G i Hi). rewrite C, atR_nth, EN in G. exact (G F).
Qed.
End G.
End I.

(** several rounds are one run *)
Lemma rounds_run {F DM D P} (o : FOps F) (dm : DesignMatrix F DM) (df : Datafit F DM D) (pen : Penalty F P) ds d q p n tol N k s s' :
  rounds o dm df pen ds d q p n tol N k s s' -> leg o dm df pen ds d q p n (k * N) s s'.
Proof.
  induction 1 as [s|k s s1 s' _ (s0 & js & A & B & C) _ (t0 & js' & A' & B' & C')]; [exists s, []; split; [left; reflexivity|]; split; [apply Nat.le_0_l|reflexivity]|].
  destruct A' as [->|A'].
  - exists s0, (js ++ js'). split; [exact A|]. split; [rewrite app_length; cbn [Nat.mul]; lia|]. rewrite foldM_app, C. exact C'.
  - exists t0, js'. split; [right; exact A'|]. split; [cbn [Nat.mul]; lia|exact C'].
Qed.
