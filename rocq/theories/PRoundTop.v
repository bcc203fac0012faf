(** The rounding lemmas in the vocabulary of SpecRound. *)
From Coq Require Import List ZArith Bool Arith Lia Reals Lra.
From Flocq Require Import Core BinarySingleNaN.
From Verif Require Import Ops Arr IEEE SpecPen SpecRound SpecSolve SpecDatafit PBase PFloat PRoundPen PRoundFit PRoundKkt MUtils MDatasets MDatafits MPenalties MCd.
Import ListNotations.
Open Scope R_scope.

Section I.
Context (prec emax : Z) (Hp : Prec_gt_0 prec) (Hm : Prec_lt_emax prec emax) (m : libm prec emax) (RD : reduces prec emax Hp Hm m).
Local Notation bf := (binary_float prec emax).
Local Notation o := (ieee_ops prec emax Hp Hm m).
Local Notation u := (urd prec).
Local Notation eta := (tiny prec emax).
Local Notation val := (val prec emax).
Local Notation finite := (finite prec emax).
Local Notation colR := (colR prec emax).
Local Notation tgtR := (tgtR prec emax).
Local Notation col := (col prec emax Hp Hm m).

Lemma nth_val (l : list bf) j : nth j (val l) 0 = B2R (nth j l (f0 o)).
Proof. unfold SpecRound.val. change 0 with (B2R (f0 o)) at 1. apply map_nth. Qed.
Lemma col_val X j : val (col X j) = colR X j.
Proof. unfold PRoundFit.col, SpecRound.colR, SpecRound.val at 1. rewrite map_map. apply map_ext. intros r. symmetry. apply nth_val. Qed.
Lemma ent_val X i j : B2R (nth i (col X j) (f0 o)) = entR prec emax X i j.
Proof. unfold entR. rewrite <- col_val. symmetry. apply nth_val. Qed.
Lemma tgt_val n t : target1_wf n t -> exists y, single_target (f0 o) t = Ret y /\ val y = tgtR t.
Proof.
  intros W. destruct t as [z|Y].
  - exists z. split; [|reflexivity]. unfold single_target, try_single_target, mcol, colv. cbn. f_equal. rewrite map_map. cbn. apply map_id.
  - destruct W as (A & B & C & D). exists (col Y 0). unfold single_target, try_single_target, mcol. cbn. rewrite B. cbn. split; [reflexivity|apply col_val].
Qed.

Lemma top_grad n p X t d0 d Xw j g : (Z.of_nat n <= 2 ^ prec)%Z -> shaped n p X -> target1_wf n t ->
  df_initialize (quad_dense o) d0 (Dataset X t) = Ret d -> df_gradient_j (quad_dense o) d (Dataset X t) Xw j = Ret g -> finite g ->
  Rabs (B2R g - (dotp (colR X j) (val Xw) - dotp (colR X j) (tgtR t)) / INR n) <=
    rel u (n + 2) * ((adot (colR X j) (val Xw) + adot (colR X j) (tgtR t)) / INR n) + 3 * (1 + u) ^ (n + 2) * eta.
Proof using RD.
  intros Hn SX ST EI EG F. destruct (tgt_val n t ST) as (y & Ey & Vy). pose proof (grad_err prec emax Hp Hm m RD n p Hn X t y d0 d Xw j g SX ST Ey EI EG F) as Q. rewrite col_val, Vy in Q. exact Q.
Qed.
Lemma top_lip n p X t d0 d j L : (Z.of_nat n <= 2 ^ prec)%Z -> shaped n p X -> target1_wf n t ->
  df_initialize (quad_dense o) d0 (Dataset X t) = Ret d -> nth_error (df_step_size (quad_dense o) d) j = Some L -> finite L ->
  Rabs (B2R L - dotp (colR X j) (colR X j) / INR n) <= rel u (n + 1) * (dotp (colR X j) (colR X j) / INR n) + 2 * (1 + u) ^ (n + 1) * eta.
Proof using RD. intros Hn SX ST EI EL F. pose proof (lip_err prec emax Hp Hm m RD n p Hn X t d0 d j L SX ST EI EL F) as Q. rewrite col_val in Q. exact Q. Qed.
Lemma top_value {DM} n t (X : DM) d Xw v : (Z.of_nat (2 * n) <= 2 ^ prec)%Z -> target1_wf n t -> length Xw = n -> quad_value o d (Dataset X t) Xw = Ret v -> finite v ->
  let V := dotp (vminus (tgtR t) (val Xw)) (vminus (tgtR t) (val Xw)) / (2 * INR n) in
  Rabs (B2R v - V) <= rel u (n + 3) * V + 2 * (1 + u) ^ (n + 1) * eta.
Proof using RD. intros Hn ST LX EV F. destruct (tgt_val n t ST) as (y & Ey & Vy). rewrite <- Vy. exact (value_err prec emax Hp Hm m RD n t y X d Xw v Hn ST Ey LX EV F). Qed.
Lemma top_alpha n p X y b am AM A : (Z.of_nat n <= 2 ^ prec)%Z -> shaped n p X -> mtv o X y = Ret b -> Forall finite b -> compute_alpha_max o X y = Ret am -> finite am ->
  is_largest p (fun j => Rabs (dotp (colR X j) (val y)) / INR n) AM -> is_largest p (fun j => adot (colR X j) (val y)) A ->
  Rabs (B2R am - AM) <= rel u (n + 1) * (A / INR n) + 2 * (1 + u) ^ (n + 1) * eta.
Proof using RD.
  intros Hn SX Eb Fb Ea Fa [L1 L2] [A1 A2]. apply (alpha_max_err prec emax Hp Hm m RD n p X y b am AM A Hn SX Eb Fb Ea Fa).
  - split; [intros j Hj; rewrite col_val; auto|]. destruct L2 as [(j & Hj & E)|E]; [left; exists j; rewrite col_val; auto|right; exact E].
  - intros j Hj. rewrite col_val. auto.
  - destruct A2 as [(j & Hj & ->)|[_ ->]]; [apply adot_pos|lra].
Qed.

(** *** the maintained fit *)
Lemma top_sweep {D P} (df : Datafit bf (mat bf) D) (pen : Penalty bf P) n p X t d q ws w Xw w' Xw' i : shaped n p X -> NoDup ws -> length Xw = n ->
  foldM (cd_step o (dense_dm o) df pen (Dataset X t) d q) ws (w, Xw) = Ret (w', Xw') -> (i < n)%nat -> finite (nth i Xw' (f0 o)) ->
  let mv j := (atR prec emax w' j - atR prec emax w j) * entR prec emax X i j in
  Rabs (atR prec emax Xw' i - (atR prec emax Xw i + rsum (map mv ws))) <=
    rel u (length ws) * Rabs (atR prec emax Xw i) + rel u (length ws + 2) * rsum (map (fun j => Rabs (mv j)) ws) + INR (length ws) * (1 + u) ^ length ws * eta.
Proof.
  intros SX ND LX H Hi F. cbv zeta. destruct (sweep_track prec emax Hp Hm m df pen n p X t d q SX ws w Xw w' Xw' i ND LX H Hi F) as (_ & _ & Q).
  unfold atR. rewrite (nth_val Xw' i), (nth_val Xw i).
  assert (E : forall j, (nth j (val w') 0 - nth j (val w) 0) * entR prec emax X i j = (B2R (nth j w' (f0 o)) - B2R (nth j w (f0 o))) * B2R (nth i (col X j) (f0 o))).
  { intros j. rewrite !nth_val, ent_val. reflexivity. }
  rewrite (map_ext _ _ E), (map_ext (fun j => Rabs ((nth j (val w') 0 - nth j (val w) 0) * entR prec emax X i j)) (fun j => Rabs ((B2R (nth j w' (f0 o)) - B2R (nth j w (f0 o))) * B2R (nth i (col X j) (f0 o))))) by (intros j; rewrite E; reflexivity).
  match goal with |- Rabs (?a - (?b + ?c)) <= _ => replace (a - (b + c)) with (a - b - c) by ring end. exact Q.
Qed.

(** *** scores *)
Lemma dotp_gap c : forall a b dl, length a = length c -> length b = length c -> (forall i, (i < length c)%nat -> Rabs (nth i a 0 - nth i b 0) <= dl) ->
  Rabs (dotp c a - dotp c b) <= dl * rsum (map Rabs c).
Proof.
  induction c as [|x c IH]; intros [|y a] [|z b] dl La Lb H; try discriminate; cbn [dotp rsum map fold_right].
  - rewrite Rminus_0_r, Rabs_R0. lra.
  - injection La as La. injection Lb as Lb. assert (H0 := H 0%nat (Nat.lt_0_succ _)). cbn in H0. assert (HI : Rabs (dotp c a - dotp c b) <= dl * rsum (map Rabs c)). { apply IH; auto. intros i Hi. apply (H (S i)). simpl. lia. }
    replace (x * y + dotp c a - (x * z + dotp c b)) with (x * (y - z) + (dotp c a - dotp c b)) by ring. eapply Rle_trans; [apply Rabs_triang|]. rewrite Rabs_mult.
    assert (Rabs x * Rabs (y - z) <= Rabs x * dl) by (apply Rmult_le_compat_l; [apply Rabs_pos|exact H0]). unfold rsum in HI |- *. lra.
Qed.
Lemma top_score n p X t d0 d a w Xw ws kkt mx k j wj g sc : (Z.of_nat n <= 2 ^ prec)%Z -> shaped n p X -> target1_wf n t ->
  df_initialize (quad_dense o) d0 (Dataset X t) = Ret d -> finite a -> 0 <= B2R a ->
  opt_cond_violation (quad_dense o) (l1_penalty o) (Dataset X t) w Xw ws d (L1 a) = Ret (kkt, mx) ->
  nth_error ws k = Some j -> nth_error w j = Some wj -> finite wj -> df_gradient_j (quad_dense o) d (Dataset X t) Xw j = Ret g -> finite g -> nth_error kkt k = Some sc -> finite sc ->
  exists dist, is_dist (subgrad (abs_pen (B2R a)) (B2R wj)) (- ((dotp (colR X j) (val Xw) - dotp (colR X j) (tgtR t)) / INR n)) dist /\
    Rabs (B2R sc - dist) <= u * dist + (1 + u) * (rel u (n + 2) * ((adot (colR X j) (val Xw) + adot (colR X j) (tgtR t)) / INR n) + 3 * (1 + u) ^ (n + 2) * eta).
Proof using RD.
  intros Hn SX ST EI Fa Ha EV Ej Ew Fw Eg Fg Ek Fs. pose proof (top_grad n p X t d0 d Xw j g Hn SX ST EI Eg Fg) as Q.
  destruct (violation_at prec emax Hp Hm m _ _ _ _ _ _ _ _ _ _ _ EV Ek) as (j' & wj' & g' & E1 & E2 & E3 & E4). assert (j' = j) by congruence. subst j'. assert (wj' = wj) by congruence. subst wj'. assert (g' = g) by congruence. subst g' sc.
  exact (score_dist prec emax Hp Hm m wj g a _ _ Fw Fg Fa Ha Fs Q).
Qed.
(** a passed stopping test bounds the exact violation at the exact fit *)
Lemma top_stop n p X t d0 d a w Xw ws kkt mx tol dl k j wj g sc : (Z.of_nat n <= 2 ^ prec)%Z -> shaped n p X -> target1_wf n t ->
  df_initialize (quad_dense o) d0 (Dataset X t) = Ret d -> finite a -> 0 <= B2R a ->
  opt_cond_violation (quad_dense o) (l1_penalty o) (Dataset X t) w Xw ws d (L1 a) = Ret (kkt, mx) -> finite tol -> fle o mx tol = true ->
  nth_error ws k = Some j -> nth_error w j = Some wj -> finite wj -> df_gradient_j (quad_dense o) d (Dataset X t) Xw j = Ret g -> finite g -> nth_error kkt k = Some sc -> finite sc ->
  (0 < n)%nat -> length Xw = n -> (forall i, (i < n)%nat -> Rabs (atR prec emax Xw i - nth i (fitR prec emax X w) 0) <= dl) ->
  exists dist, is_dist (subgrad (abs_pen (B2R a)) (B2R wj)) (- ((dotp (colR X j) (fitR prec emax X w) - dotp (colR X j) (tgtR t)) / INR n)) dist /\
    (1 - u) * dist <= B2R tol + (1 + u) * (rel u (n + 2) * ((adot (colR X j) (val Xw) + adot (colR X j) (tgtR t)) / INR n) + 3 * (1 + u) ^ (n + 2) * eta + dl * (rsum (map Rabs (colR X j)) / INR n)).
Proof using RD.
  intros Hn SX ST EI Fa Ha EV Ft HL Ej Ew Fw Eg Fg Ek Fs Pn LX HD. pose proof (top_grad n p X t d0 d Xw j g Hn SX ST EI Eg Fg) as Q. apply lt_INR in Pn. change (INR 0) with 0 in Pn.
  assert (LC : length (colR X j) = n). { destruct SX as (S1 & S2 & S3 & _). unfold SpecRound.colR. rewrite map_length. congruence. }
  assert (Q2 : Rabs ((dotp (colR X j) (val Xw) - dotp (colR X j) (tgtR t)) / INR n - (dotp (colR X j) (fitR prec emax X w) - dotp (colR X j) (tgtR t)) / INR n) <= dl * (rsum (map Rabs (colR X j)) / INR n)).
  { assert (G : Rabs (dotp (colR X j) (val Xw) - dotp (colR X j) (fitR prec emax X w)) <= dl * rsum (map Rabs (colR X j))).
    { apply dotp_gap. - unfold SpecRound.val. rewrite map_length. lia. - destruct SX as (S1 & S2 & S3 & _). unfold fitR. rewrite map_length. lia. - intros i Hi. apply HD. lia. }
    replace ((dotp (colR X j) (val Xw) - dotp (colR X j) (tgtR t)) / INR n - (dotp (colR X j) (fitR prec emax X w) - dotp (colR X j) (tgtR t)) / INR n) with ((dotp (colR X j) (val Xw) - dotp (colR X j) (fitR prec emax X w)) / INR n) by (field; lra).
    unfold Rdiv. rewrite Rabs_mult, (Rabs_right (/ INR n)) by (apply Rle_ge; left; apply Rinv_0_lt_compat; lra). rewrite <- Rmult_assoc. apply Rmult_le_compat_r; [left; apply Rinv_0_lt_compat; lra|exact G]. }
  pose proof (abs_mid _ _ _ _ _ Q Q2) as Q3.
  assert (B : B2R sc <= B2R tol) by exact (violation_max prec emax Hp Hm m _ _ _ _ _ _ _ _ _ sc tol EV (nth_error_In _ _ Ek) Fs Ft HL).
  destruct (violation_at prec emax Hp Hm m _ _ _ _ _ _ _ _ _ _ _ EV Ek) as (j' & wj' & g' & E1 & E2 & E3 & E4). assert (j' = j) by congruence. subst j'. assert (wj' = wj) by congruence. subst wj'. assert (g' = g) by congruence. subst g' sc.
  destruct (score_dist prec emax Hp Hm m wj g a _ _ Fw Fg Fa Ha Fs Q3) as (dist & D1 & D2). exists dist. split; [exact D1|].
  apply Rabs_le_inv in D2. lra.
Qed.
End I.
