(** Rounding errors of the quadratic datafit, of penalty values, and of alpha_max (dense designs). *)
From Coq Require Import List ZArith Bool Arith Lia Reals Lra.
From Flocq Require Import Core BinarySingleNaN.
From Verif Require Import Ops Arr IEEE SpecPen SpecRound SpecSolve PBase PFloat MUtils MDatasets MDatafits MPenalties.
Import ListNotations.
Open Scope R_scope.

Section I.
Context (prec emax : Z) (Hp : Prec_gt_0 prec) (Hm : Prec_lt_emax prec emax) (m : libm prec emax) (RD : reduces prec emax Hp Hm m).
Local Notation bf := (binary_float prec emax).
Local Notation o := (ieee_ops prec emax Hp Hm m).
Local Notation fl := (fl prec emax).
Local Notation u := (urd prec).
Local Notation eta := (tiny prec emax).
Local Notation val := (val prec emax).
Local Notation finite := (finite prec emax).
Local Notation bsub := (bsub prec emax Hp Hm).
Local Notation bdiv := (bdiv prec emax Hp Hm).
Local Notation bmul := (bmul prec emax Hp Hm).

Definition dot_err (k : nat) (A : R) : R := rel u k * A + (1 + u) ^ k * (INR k * eta).
Lemma ndot_err a b : length a = length b -> finite (ndot o a b) -> Forall finite a /\ Forall finite b /\
  Rabs (B2R (ndot o a b) - dotp (val a) (val b)) <= dot_err (length a) (adot (val a) (val b)).
Proof using RD. intros L F. destruct RD as (_ & _ & R1 & _). exact (tree_dot_err prec emax Hp Hm a b _ L (R1 a b) F). Qed.
Lemma dot_err_pos k A : 0 <= A -> 0 <= dot_err k A.
Proof.
  intros H. unfold dot_err. pose proof (rel_pos prec k). pose proof (u_pos prec). apply Rplus_le_le_0_compat; apply Rmult_le_pos; auto.
  apply pow_le; lra. apply Rmult_le_pos; [apply pos_INR|left; apply eta_pos].
Qed.

Lemma abs_mid a b c e f : Rabs (a - b) <= e -> Rabs (b - c) <= f -> Rabs (a - c) <= e + f.
Proof. intros H K. replace (a - c) with ((a - b) + (b - c)) by ring. eapply Rle_trans; [apply Rabs_triang|lra]. Qed.
Lemma abs_le_near a b e : Rabs (a - b) <= e -> Rabs a <= Rabs b + e.
Proof. intros H. replace a with ((a - b) + b) by ring. eapply Rle_trans; [apply Rabs_triang|lra]. Qed.

(** a quotient by a positive number *)
Lemma div_err (q N : bf) Q E n : finite (bdiv q N) -> finite N -> B2R N = n -> 0 < n -> Rabs (B2R q - Q) <= E ->
  Rabs (B2R (bdiv q N) - Q / n) <= ((1 + u) * E + u * Rabs Q) / n + eta.
Proof.
  intros F FN En Pn H. destruct (div_fin prec emax Hp Hm q N F FN) as (Fq & _ & Eq). rewrite Eq, En.
  pose proof (fl_err prec emax Hp (B2R q / n)) as E1. pose proof (abs_le_near _ _ _ H) as B. pose proof (u_pos prec) as U.
  assert (I : 0 < / n) by (apply Rinv_0_lt_compat; exact Pn).
  assert (A : Rabs (B2R q / n - Q / n) <= E / n). { replace (B2R q / n - Q / n) with ((B2R q - Q) / n) by (field; lra). unfold Rdiv. rewrite Rabs_mult, (Rabs_right (/ n)) by lra. apply Rmult_le_compat_r; lra. }
  assert (C : Rabs (B2R q / n) <= (Rabs Q + E) / n). { unfold Rdiv. rewrite Rabs_mult, (Rabs_right (/ n)) by lra. apply Rmult_le_compat_r; lra. }
  eapply Rle_trans; [exact (abs_mid _ _ _ _ _ E1 A)|]. assert (u * Rabs (B2R q / n) <= u * ((Rabs Q + E) / n)) by (apply Rmult_le_compat_l; lra).
  replace (((1 + u) * E + u * Rabs Q) / n) with (u * ((Rabs Q + E) / n) + E / n) by (field; lra). lra.
Qed.
Lemma sub_div_err (d b N : bf) D B Ed Eb n : finite (bdiv (bsub d b) N) -> finite N -> B2R N = n -> 0 < n ->
  Rabs (B2R d - D) <= Ed -> Rabs (B2R b - B) <= Eb ->
  Rabs (B2R (bdiv (bsub d b) N) - (D - B) / n) <= ((1 + u) ^ 2 * (Ed + Eb) + rel u 2 * Rabs (D - B)) / n + eta.
Proof.
  intros F FN En Pn Hd Hb. destruct (div_fin prec emax Hp Hm _ N F FN) as (Fs & _ & _). destruct (sub_fin prec emax Hp Hm d b Fs) as (Fd & Fb & Es).
  pose proof (fl_plus_err prec emax Hp (B2R d) (- B2R b) (fmt_val prec emax d) (generic_format_opp _ _ _ (fmt_val prec emax b))) as E1.
  change (B2R d + - B2R b) with (B2R d - B2R b) in E1. rewrite <- Es in E1.
  assert (X : Rabs (B2R d - B2R b - (D - B)) <= Ed + Eb). { replace (B2R d - B2R b - (D - B)) with ((B2R d - D) + - (B2R b - B)) by ring. eapply Rle_trans; [apply Rabs_triang|]. rewrite Rabs_Ropp. lra. }
  pose proof (abs_le_near _ _ _ X) as Y. pose proof (u_pos prec) as U.
  assert (Z : Rabs (B2R (bsub d b) - (D - B)) <= (1 + u) * (Ed + Eb) + u * Rabs (D - B)).
  { eapply Rle_trans; [exact (abs_mid _ _ _ _ _ E1 X)|]. assert (u * Rabs (B2R d - B2R b) <= u * (Rabs (D - B) + (Ed + Eb))) by (apply Rmult_le_compat_l; lra). lra. }
  eapply Rle_trans; [exact (div_err _ _ _ _ _ F FN En Pn Z)|]. unfold rel. apply Req_le. field. lra.
Qed.

Section Data.
Context (n p : nat) (Hn : (Z.of_nat n <= 2 ^ prec)%Z).
Lemma cast_n : finite (bcast prec emax Hp Hm n) /\ B2R (bcast prec emax Hp Hm n) = INR n.
Proof using Hn. exact (cast_exact prec emax Hp Hm n Hn). Qed.

Definition col (X : mat bf) (j : nat) : list bf := map (fun r => nth j r (f0 o)) (mrows X).
Lemma col_len X j : shaped n p X -> length (col X j) = n.
Proof. intros (A & B & C & D). unfold col. rewrite map_length. congruence. Qed.
Lemma mtv_get X y b j x : shaped n p X -> mtv o X y = Ret b -> nth_error b j = Some x -> (j < p)%nat /\ length y = n /\ x = ndot o (col X j) y.
Proof.
  intros (A & B & C) H N. unfold mtv in H. destruct (mnr X =? length y)%nat eqn:E; [|discriminate]. injection H as <-. apply Nat.eqb_eq in E.
  unfold cols in N. rewrite map_map, nth_error_map in N. destruct (nth_error (seq 0 (mnc X)) j) as [k|] eqn:Ek; [|discriminate]. injection N as <-.
  assert (Hj : (j < length (seq 0 (mnc X)))%nat) by (apply nth_error_Some; congruence). rewrite seq_length in Hj.
  rewrite (nth_error_nth' _ 0%nat) in Ek by (rewrite seq_length; exact Hj). rewrite seq_nth in Ek by exact Hj. injection Ek as <-. repeat split; try lia; congruence.
Qed.
Lemma target_len t y : target1_wf n t -> single_target (f0 o) t = Ret y -> length y = n.
Proof.
  intros W H. destruct t as [z|Y]; unfold single_target, try_single_target, mcol, colv in H; cbn in H.
  - injection H as <-. rewrite !map_length. exact W.
  - destruct W as (A & B & C & D). rewrite B in H. cbn in H. injection H as <-. rewrite map_length. congruence.
Qed.

Lemma grad_err X t y d0 d Xw j g : shaped n p X -> target1_wf n t -> single_target (f0 o) t = Ret y ->
  df_initialize (quad_dense o) d0 (Dataset X t) = Ret d -> df_gradient_j (quad_dense o) d (Dataset X t) Xw j = Ret g -> finite g ->
  Rabs (B2R g - (dotp (val (col X j)) (val Xw) - dotp (val (col X j)) (val y)) / INR n) <=
    rel u (n + 2) * ((adot (val (col X j)) (val Xw) + adot (val (col X j)) (val y)) / INR n) + 3 * (1 + u) ^ (n + 2) * eta.
Proof using RD Hn.
  intros SX ST Ey EI EG F. pose proof (target_len _ _ ST Ey) as Ly. assert (NS : n_samples t = n) by (destruct t; [exact ST|exact (proj1 ST)]).
  cbn [quad_dense df_initialize df_gradient_j] in EI, EG. unfold quad_dense_initialize in EI. cbn [dtargets design_matrix] in EI. rewrite Ey in EI. cbn [bind] in EI.
  destruct (mtv o X y) as [b|] eqn:Eb; [|discriminate]. cbn [bind] in EI. injection EI as <-.
  unfold quad_dense_gradient_j in EG. cbn [dtargets design_matrix q_Xty] in EG. unfold mcol in EG. destruct (j <? mnc X)%nat eqn:Ej; [|discriminate]. cbn [bind] in EG.
  unfold vdot in EG. change (colv (f0 o) X j) with (col X j) in EG. destruct (length (col X j) =? length Xw)%nat eqn:EL; [|discriminate]. cbn [bind] in EG.
  unfold vget in EG. destruct (nth_error b j) as [bj|] eqn:Ebj; [|discriminate]. cbn [bind] in EG. injection EG as <-. apply Nat.eqb_eq in EL. rewrite (col_len X j SX) in EL.
  destruct (mtv_get X y b j bj SX Eb Ebj) as (Hj & _ & ->). rewrite NS in *. cbn [ieee_ops fdiv fsub fcast] in F |- *.
  destruct cast_n as [FN EN]. destruct (div_fin prec emax Hp Hm _ _ F FN) as (Fs & Nz & _). destruct (sub_fin prec emax Hp Hm _ _ Fs) as (Fd & Fb & _).
  assert (Pn : 0 < INR n) by (rewrite EN in Nz; pose proof (pos_INR n); lra).
  destruct (ndot_err (col X j) Xw) as (_ & _ & Ed); [rewrite (col_len X j SX); exact EL|exact Fd|].
  destruct (ndot_err (col X j) y) as (_ & _ & Eb'); [rewrite (col_len X j SX); congruence|exact Fb|]. rewrite (col_len X j SX) in Ed, Eb'.
  eapply Rle_trans; [exact (sub_div_err _ _ _ _ _ _ _ _ F FN EN Pn Ed Eb')|].
  set (A1 := adot (val (col X j)) (val Xw)). set (A2 := adot (val (col X j)) (val y)). set (D := dotp (val (col X j)) (val Xw)). set (B := dotp (val (col X j)) (val y)).
  assert (HD : Rabs (D - B) <= A1 + A2). { replace (D - B) with (D + - B) by ring. eapply Rle_trans; [apply Rabs_triang|]. rewrite Rabs_Ropp. apply Rplus_le_compat; apply dotp_adot. }
  unfold dot_err. pose proof (u_pos prec) as U. pose proof (eta_pos prec emax) as Q. pose proof (rel_pos prec 2) as R2.
  assert (1 <= (1 + u) ^ (n + 2)) by (apply pow_R1_Rle; lra).
  apply Rle_trans with (((1 + u) ^ 2 * (rel u n * A1 + (1 + u) ^ n * (INR n * eta) + (rel u n * A2 + (1 + u) ^ n * (INR n * eta))) + rel u 2 * (A1 + A2)) / INR n + eta).
  { apply Rplus_le_compat_r. apply Rmult_le_compat_r; [left; apply Rinv_0_lt_compat; exact Pn|]. apply Rplus_le_compat_l. apply Rmult_le_compat_l; auto. }
  replace (((1 + u) ^ 2 * (rel u n * A1 + (1 + u) ^ n * (INR n * eta) + (rel u n * A2 + (1 + u) ^ n * (INR n * eta))) + rel u 2 * (A1 + A2)) / INR n)
    with (rel u (n + 2) * ((A1 + A2) / INR n) + 2 * (1 + u) ^ (n + 2) * eta).
  - assert (eta <= (1 + u) ^ (n + 2) * eta) by nra. lra.
  - unfold rel. rewrite pow_add. field. lra.
Qed.
Lemma lip_err X t d0 d j L : shaped n p X -> target1_wf n t ->
  df_initialize (quad_dense o) d0 (Dataset X t) = Ret d -> nth_error (df_step_size (quad_dense o) d) j = Some L -> finite L ->
  Rabs (B2R L - dotp (val (col X j)) (val (col X j)) / INR n) <=
    rel u (n + 1) * (dotp (val (col X j)) (val (col X j)) / INR n) + 2 * (1 + u) ^ (n + 1) * eta.
Proof using RD Hn.
  intros SX ST EI EL F. assert (NS : n_samples t = n) by (destruct t; [exact ST|exact (proj1 ST)]).
  cbn [quad_dense df_initialize df_step_size] in EI, EL. unfold quad_dense_initialize in EI. cbn [dtargets design_matrix] in EI.
  destruct (single_target (f0 o) t) as [y|]; [|discriminate]. cbn [bind] in EI. destruct (mtv o X y) as [b|]; [|discriminate]. cbn [bind] in EI. injection EI as <-. cbn [q_lipschitz] in EL.
  unfold cols in EL. rewrite map_map, nth_error_map in EL. destruct (nth_error (seq 0 (mnc X)) j) as [k|] eqn:Ek; [|discriminate]. injection EL as <-.
  assert (Hj : (j < length (seq 0 (mnc X)))%nat) by (apply nth_error_Some; congruence). rewrite seq_length in Hj.
  rewrite (nth_error_nth' _ 0%nat) in Ek by (rewrite seq_length; exact Hj). rewrite seq_nth in Ek by exact Hj. injection Ek as <-. change (colv (f0 o) X (0 + j)) with (col X j) in *. rewrite NS in *.
  cbn [ieee_ops fdiv fcast] in F |- *. destruct cast_n as [FN EN]. destruct (div_fin prec emax Hp Hm _ _ F FN) as (Fs & Nz & _).
  assert (Pn : 0 < INR n) by (rewrite EN in Nz; pose proof (pos_INR n); lra).
  destruct (ndot_err (col X j) (col X j) eq_refl Fs) as (_ & _ & Ed). rewrite (col_len X j SX) in Ed.
  assert (AD : forall l, adot l l = dotp l l /\ 0 <= dotp l l). { induction l as [|z l [IH1 IH2]]; simpl; [lra|]. rewrite IH1, Rabs_right by nra. split; nra. }
  destruct (AD (val (col X j))) as [AD1 AD2]. rewrite AD1 in Ed. eapply Rle_trans; [exact (div_err _ _ _ _ _ F FN EN Pn Ed)|]. rewrite (Rabs_right _ (Rle_ge _ _ AD2)).
  set (D := dotp (val (col X j)) (val (col X j))) in *. unfold dot_err.
  pose proof (u_pos prec) as U. pose proof (eta_pos prec emax) as Q. assert (1 <= (1 + u) ^ (n + 1)) by (apply pow_R1_Rle; lra).
  replace (((1 + u) * (rel u n * D + (1 + u) ^ n * (INR n * eta)) + u * D) / INR n) with (rel u (n + 1) * (D / INR n) + (1 + u) ^ (n + 1) * eta).
  - assert (eta <= (1 + u) ^ (n + 1) * eta) by nra. lra.
  - unfold rel. rewrite pow_add. field. lra.
Qed.
End Data.

(** the loss; [2n] must be representable *)
Lemma sub_list_err y Xw : length y = length Xw -> Forall finite (map2 bsub y Xw) ->
  Forall finite y /\ Forall finite Xw /\
  Rabs (dotp (val (map2 bsub y Xw)) (val (map2 bsub y Xw)) - dotp (vminus (val y) (val Xw)) (vminus (val y) (val Xw))) <= rel u 2 * dotp (vminus (val y) (val Xw)) (vminus (val y) (val Xw)).
Proof.
  revert Xw. induction y as [|a y IH]; intros [|b Xw] L F; try discriminate L.
  - simpl. rewrite Rminus_0_r, Rabs_R0, Rmult_0_r. split; [constructor|split; [constructor|lra]].
  - rewrite map2_cons in *. inversion F as [|? ? F1 F2]; subst. injection L as L. destruct (IH Xw L F2) as (A & B & C). destruct (sub_fin prec emax Hp Hm a b F1) as (Fa & Fb & E).
    split; [constructor; auto|split; [constructor; auto|]]. unfold SpecRound.val in *. cbn [map vminus dotp]. rewrite E.
    pose proof (fl_plus_err prec emax Hp (B2R a) (- B2R b) (fmt_val prec emax a) (generic_format_opp _ _ _ (fmt_val prec emax b))) as E1.
    change (B2R a + - B2R b) with (B2R a - B2R b) in E1. set (z := B2R a - B2R b) in *. set (f := fl z) in *.
    set (S1 := dotp (map B2R (map2 bsub y Xw)) (map B2R (map2 bsub y Xw))) in *. set (S2 := dotp (vminus (map B2R y) (map B2R Xw)) (vminus (map B2R y) (map B2R Xw))) in *.
    replace (f * f + S1 - (z * z + S2)) with ((f * f - z * z) + (S1 - S2)) by ring. eapply Rle_trans; [apply Rabs_triang|].
    assert (Q : Rabs (f * f - z * z) <= rel u 2 * (z * z)).
    { replace (f * f - z * z) with ((f - z) * (f + z)) by ring. rewrite Rabs_mult. pose proof (u_pos prec) as U. pose proof (Rabs_pos (f - z)). pose proof (Rabs_pos (f + z)). pose proof (Rabs_pos z).
      assert (Rabs (f + z) <= (2 + u) * Rabs z). { replace (f + z) with ((f - z) + 2 * z) by ring. eapply Rle_trans; [apply Rabs_triang|]. rewrite Rabs_mult, (Rabs_right 2) by lra. lra. }
      assert (Rabs z * Rabs z = z * z) by (rewrite <- Rabs_mult; apply Rabs_right; nra).
      apply Rle_trans with ((u * Rabs z) * ((2 + u) * Rabs z)). { apply Rmult_le_compat; lra. } unfold rel. nra. }
    lra.
Qed.
Lemma dotp_self_pos l : 0 <= dotp l l.
Proof. induction l as [|x l IH]; simpl; nra. Qed.
Lemma adot_self l : adot l l = dotp l l.
Proof. induction l as [|x l IH]; simpl; [reflexivity|]. rewrite IH, Rabs_right by nra. reflexivity. Qed.
Lemma value_err {DM} n t y (X : DM) d Xw v : (Z.of_nat (2 * n) <= 2 ^ prec)%Z -> target1_wf n t -> single_target (f0 o) t = Ret y ->
  length Xw = n -> quad_value o d (Dataset X t) Xw = Ret v -> finite v ->
  let V := dotp (vminus (val y) (val Xw)) (vminus (val y) (val Xw)) / (2 * INR n) in
  Rabs (B2R v - V) <= rel u (n + 3) * V + 2 * (1 + u) ^ (n + 1) * eta.
Proof using RD.
  intros Hn ST Ey LX EV F V. pose proof (target_len n t y ST Ey) as Ly. assert (NS : n_samples t = n) by (destruct t; [exact ST|exact (proj1 ST)]).
  unfold quad_value in EV. cbn [dtargets] in EV. rewrite Ey in EV. cbn [bind] in EV. unfold vsub, vbin in EV. assert (EL : length y = length Xw) by lia. rewrite EL, Nat.eqb_refl in EV. cbn [bind] in EV.
  unfold vdot in EV. rewrite Nat.eqb_refl in EV. cbn [bind] in EV. injection EV as <-. rewrite NS in *. cbn [ieee_ops fdiv fcast fsub] in F |- *.
  set (r := map2 bsub y Xw) in *. change (map2 (fsub o) y Xw) with r in *.
  destruct (cast_exact prec emax Hp Hm (2 * n) Hn) as [FN EN]. destruct (div_fin prec emax Hp Hm _ _ F FN) as (Fs & Nz & _).
  assert (Nz' : B2R (bcast prec emax Hp Hm (2 * n)) <> 0) by exact Nz. assert (Pn : 0 < INR (2 * n)) by (rewrite EN in Nz'; pose proof (pos_INR (2 * n)); lra).
  assert (E2 : INR (2 * n) = 2 * INR n) by (rewrite mult_INR; reflexivity).
  destruct (ndot_err r r eq_refl Fs) as (Fr & _ & Ed). assert (Lr : length r = n) by (unfold r, map2; rewrite map_length, combine_length; lia). rewrite Lr in Ed.
  destruct (sub_list_err y Xw EL Fr) as (_ & _ & Es). fold r in Es. rewrite adot_self in Ed.
  set (S1 := dotp (val r) (val r)) in *. set (S := dotp (vminus (val y) (val Xw)) (vminus (val y) (val Xw))) in *. assert (PS : 0 <= S) by apply dotp_self_pos. assert (PS1 : 0 <= S1) by apply dotp_self_pos.
  assert (Et : Rabs (B2R (ndot o r r) - S) <= rel u (n + 2) * S + (1 + u) ^ n * (INR n * eta)).
  { eapply Rle_trans; [exact (abs_mid _ _ _ _ _ Ed Es)|]. unfold dot_err. pose proof (abs_le_near _ _ _ Es) as Q. rewrite (Rabs_right S1), (Rabs_right S) in Q by lra.
    pose proof (rel_pos prec n). assert (rel u n * S1 <= rel u n * (S + rel u 2 * S)) by (apply Rmult_le_compat_l; auto).
    assert (rel u n * (S + rel u 2 * S) + rel u 2 * S = rel u (n + 2) * S) by (unfold rel; rewrite pow_add; ring). lra. }
  assert (Pn2 : 0 < 2 * INR n) by (rewrite <- E2; exact Pn). eapply Rle_trans; [exact (div_err _ _ S _ _ F FN (eq_trans EN E2) Pn2 Et)|]. fold V. rewrite (Rabs_right S) by lra.
  assert (Pn1 : 0 < INR n) by lra. pose proof (u_pos prec) as U. pose proof (eta_pos prec emax) as Q. assert (1 <= (1 + u) ^ (n + 1)) by (apply pow_R1_Rle; lra).
  replace (((1 + u) * (rel u (n + 2) * S + (1 + u) ^ n * (INR n * eta)) + u * S) / (2 * INR n)) with (rel u (n + 3) * V + (1 + u) ^ (n + 1) * eta / 2).
  - assert (eta <= (1 + u) ^ (n + 1) * eta) by nra. lra.
  - unfold V, rel. replace (n + 3)%nat with (n + 2 + 1)%nat by lia. rewrite !pow_add. field. lra.
Qed.

(** the L1 penalty *)
Lemma l1_value_err a w v : l1_value o (L1 a) w = v -> finite v ->
  Rabs (B2R v - B2R a * rsum (map Rabs (val w))) <= rel u (length w) * Rabs (B2R a * rsum (map Rabs (val w))) + eta.
Proof using RD.
  intros <- F. unfold l1_value in *. cbn [l1_alpha ieee_ops fmul isum fabs] in *. destruct (mul_fin prec emax Hp Hm _ _ F) as (Fa & Fs & E). rewrite E.
  destruct RD as (R0 & _). destruct (tree_err prec emax Hp Hm _ _ (R0 (map Babs w)) Fs) as [Fw Es]. rewrite map_length in Es.
  assert (EV : SpecRound.val prec emax (map Babs w) = map Rabs (val w)). { unfold SpecRound.val. rewrite !map_map. apply map_ext. intros z. apply B2R_Babs. }
  rewrite EV in Es. assert (EA : map Rabs (map Rabs (val w)) = map Rabs (val w)). { rewrite map_map. apply map_ext. intros z. apply Rabs_Rabsolu. } rewrite EA in Es.
  set (W := rsum (map Rabs (val w))) in *. assert (PW : 0 <= W) by apply rsum_abs_pos. set (s := B2R (lm_isum prec emax m (map Babs w))) in *. pose proof (u_pos prec) as U.
  pose proof (fl_err prec emax Hp (B2R a * s)) as E1. set (k := Nat.pred (length w)) in *. pose proof (rel_pos prec k) as Rk.
  assert (E2 : Rabs (B2R a * s - B2R a * W) <= rel u k * Rabs (B2R a * W)).
  { replace (B2R a * s - B2R a * W) with (B2R a * (s - W)) by ring. rewrite !Rabs_mult. rewrite (Rabs_right W) by lra. replace (rel u k * (Rabs (B2R a) * W)) with (Rabs (B2R a) * (rel u k * W)) by ring. apply Rmult_le_compat_l; [apply Rabs_pos|exact Es]. }
  pose proof (abs_le_near _ _ _ E2) as E3. eapply Rle_trans; [exact (abs_mid _ _ _ _ _ E1 E2)|]. set (P := Rabs (B2R a * W)) in *. assert (PP : 0 <= P) by apply Rabs_pos.
  assert (u * Rabs (B2R a * s) <= u * (P + rel u k * P)) by (apply Rmult_le_compat_l; lra).
  destruct w as [|w0 w]; [assert (P = 0) by (unfold P, W; simpl; rewrite Rmult_0_r; apply Rabs_R0); assert (k = 0%nat) by reflexivity; rewrite H1, rel_0 in *; rewrite H0 in *; simpl; lra|].
  change (length (w0 :: w)) with (S k). rewrite rel_S. nra.
Qed.
End I.
