(** Rounding errors of alpha_max, of the optimality scores, and of the maintained model fit. *)
From Coq Require Import List ZArith Bool Arith Lia Reals Lra.
From Flocq Require Import Core BinarySingleNaN Plus_error.
From Verif Require Import Ops Arr XR IEEE SpecPen SpecRound SpecSolve SpecDatafit PBase PLaws PNullLaws PSubdiff PFloat PRoundFit MUtils MDatasets MDatafits MPenalties MCd.
Import ListNotations.
Open Scope R_scope.

Section I.
Context (prec emax : Z) (Hp : Prec_gt_0 prec) (Hm : Prec_lt_emax prec emax) (m : libm prec emax) (RD : reduces prec emax Hp Hm m).
Local Notation bf := (binary_float prec emax).
Local Notation o := (ieee_ops prec emax Hp Hm m).
Local Notation fl := (fl prec emax).
Local Notation u := (urd prec).
Local Notation eta := (tiny prec emax).
Local Notation val := (val prec emax).
Local Notation finite := (finite prec emax).
Local Notation bsub := (bsub prec emax Hp Hm).
Local Notation bdiv := (bdiv prec emax Hp Hm).
Local Notation bmul := (bmul prec emax Hp Hm).
Local Notation badd := (badd prec emax Hp Hm).
Local Notation col := (col prec emax Hp Hm m).

(** *** maxima *)
Lemma max_fin (x y : bf) : finite x -> finite y -> finite (bmax prec emax x y) /\ B2R (bmax prec emax x y) = Rmax (B2R x) (B2R y).
Proof.
  intros Fx Fy. unfold bmax. assert (Nx : is_nan x = false) by (destruct x; auto; discriminate). assert (Ny : is_nan y = false) by (destruct y; auto; discriminate). rewrite Nx, Ny.
  destruct (Bltb x y) eqn:E.
  - apply (lt_fin prec emax x y Fx Fy) in E. split; [exact Fy|]. rewrite Rmax_right; lra.
  - assert (~ B2R x < B2R y) by (intros H; apply (lt_fin prec emax x y Fx Fy) in H; congruence). split; [exact Fx|]. rewrite Rmax_left; lra.
Qed.
Lemma fold_abs_max l : forall a, finite a -> Forall finite l ->
  let M := fold_left (fun mx x => bmax prec emax (Babs x) mx) l a in
  finite M /\ B2R a <= B2R M /\ (forall x, In x l -> Rabs (B2R x) <= B2R M) /\ (B2R M = B2R a \/ exists x, In x l /\ B2R M = Rabs (B2R x)).
Proof.
  induction l as [|x l IH]; intros a Fa FL; cbn [fold_left].
  - split; [exact Fa|]. split; [lra|]. split; [intros x []|left; reflexivity].
  - inversion FL as [|? ? Fx FL']; subst. assert (Fb : finite (Babs x)) by (unfold SpecRound.finite; rewrite is_finite_Babs; exact Fx). destruct (max_fin (Babs x) a Fb Fa) as [F1 E1]. rewrite B2R_Babs in E1.
    destruct (IH _ F1 FL') as (A & B & C & D). rewrite E1 in B, D. split; [exact A|]. pose proof (Rmax_l (Rabs (B2R x)) (B2R a)). pose proof (Rmax_r (Rabs (B2R x)) (B2R a)).
    split; [lra|]. split; [intros z [<-|Hz]; [lra|auto]|]. destruct D as [D|(z & Hz & D)].
    + destruct (Rle_dec (Rabs (B2R x)) (B2R a)); [left; rewrite D; apply Rmax_right; lra|right; exists x; split; [left; reflexivity|rewrite D; apply Rmax_left; lra]].
    + right. exists z. split; [right; exact Hz|exact D].
Qed.

Lemma alpha_max_err n p X y b am AM A : (Z.of_nat n <= 2 ^ prec)%Z -> shaped n p X -> mtv o X y = Ret b -> Forall finite b -> compute_alpha_max o X y = Ret am -> finite am ->
  is_largest p (fun j => Rabs (dotp (val (col X j)) (val y)) / INR n) AM -> (forall j, (j < p)%nat -> adot (val (col X j)) (val y) <= A) -> 0 <= A ->
  Rabs (B2R am - AM) <= rel u (n + 1) * (A / INR n) + 2 * (1 + u) ^ (n + 1) * eta.
Proof using RD.
  intros Hn SX Eb Fb Ea Fa [L1 L2] HA PA. unfold compute_alpha_max in Ea. rewrite Eb in Ea. cbn [bind] in Ea. injection Ea as <-. destruct SX as (S1 & S2 & S3). rewrite S1 in *.
  cbn [ieee_ops fdiv fcast fmax fabs f0] in *. set (M := fold_left (fun max_val x => bmax prec emax (Babs x) max_val) b (bzero prec emax)) in *.
  destruct (cast_exact prec emax Hp Hm n Hn) as [FN EN]. destruct (div_fin prec emax Hp Hm _ _ Fa FN) as (FM & Nz & _). assert (Pn : 0 < INR n) by (rewrite EN in Nz; pose proof (pos_INR n); lra).
  destruct (fold_abs_max b (bzero prec emax) eq_refl Fb) as (_ & M0 & M1 & M2). fold M in M0, M1, M2. change (B2R (bzero prec emax)) with 0 in M0, M2.
  assert (SX : shaped n p X) by (split; auto).
  assert (EB : forall j x, nth_error b j = Some x -> (j < p)%nat /\ Rabs (B2R x - dotp (val (col X j)) (val y)) <= dot_err prec emax n A).
  { intros j x Hx. destruct (mtv_get prec emax Hp Hm m n p X y b j x SX Eb Hx) as (Hj & Ly & Ex). split; [exact Hj|].
    assert (Fx : finite x) by (rewrite Forall_forall in Fb; apply Fb; eapply nth_error_In; eauto). rewrite Ex in Fx |- *.
    destruct (ndot_err prec emax Hp Hm m RD (col X j) y) as (_ & _ & E); [rewrite (col_len prec emax Hp Hm m n p X j SX); congruence|exact Fx|]. rewrite (col_len prec emax Hp Hm m n p X j SX) in E.
    eapply Rle_trans; [exact E|]. unfold dot_err. apply Rplus_le_compat_r. apply Rmult_le_compat_l; [apply rel_pos|auto]. }
  assert (LB : length b = p). { unfold mtv in Eb. destruct (_ =? _)%nat; [|discriminate]. injection Eb as <-. unfold cols. rewrite !map_length, seq_length. exact S2. }
  pose proof (dot_err_pos prec emax n A PA) as PE. set (E := dot_err prec emax n A) in *.
  assert (HM : Rabs (B2R M - INR n * AM) <= E).
  { assert (PM : 0 <= AM). { destruct L2 as [(j & Hj & ->)|[_ ->]]; [|lra]. apply Rmult_le_pos; [apply Rabs_pos|left; apply Rinv_0_lt_compat; exact Pn]. }
    apply Rabs_le. split.
    - destruct L2 as [(j & Hj & EA)|[Zp EA]].
      + assert (NA : INR n * AM = Rabs (dotp (val (col X j)) (val y))) by (rewrite EA; field; lra). destruct (nth_error b j) as [x|] eqn:Ex; [|apply nth_error_None in Ex; lia].
        destruct (EB j x Ex) as [_ Q]. pose proof (M1 x (nth_error_In _ _ Ex)). rewrite Rabs_minus_sym in Q. pose proof (abs_le_near _ _ _ Q). lra.
      + rewrite EA. lra.
    - destruct M2 as [M2|(x & Hx & M2)].
      + rewrite M2. assert (0 <= INR n * AM) by (apply Rmult_le_pos; lra). lra.
      + apply In_nth_error in Hx as [j Hx]. destruct (EB j x Hx) as [Hj Q]. pose proof (abs_le_near _ _ _ Q). specialize (L1 j Hj). cbv beta in L1.
        assert (Rabs (dotp (val (col X j)) (val y)) <= INR n * AM). { apply Rmult_le_compat_l with (r := INR n) in L1; [|lra]. replace (INR n * (Rabs (dotp (val (col X j)) (val y)) / INR n)) with (Rabs (dotp (val (col X j)) (val y))) in L1 by (field; lra). exact L1. } lra. }
  assert (EQ : AM = INR n * AM / INR n) by (field; lra). rewrite EQ at 1. eapply Rle_trans; [exact (div_err prec emax Hp Hm _ _ _ _ _ Fa FN EN Pn HM)|].
  assert (BA : Rabs (INR n * AM) <= A).
  { destruct L2 as [(j & Hj & EA)|[Zp EA]]; [|rewrite EA, Rmult_0_r, Rabs_R0; exact PA].
    replace (INR n * AM) with (Rabs (dotp (val (col X j)) (val y))) by (rewrite EA; field; lra). rewrite Rabs_Rabsolu. eapply Rle_trans; [apply dotp_adot|auto]. }
  pose proof (u_pos prec) as U. pose proof (eta_pos prec emax) as Q. assert (1 <= (1 + u) ^ (n + 1)) by (apply pow_R1_Rle; lra).
  apply Rle_trans with (((1 + u) * E + u * A) / INR n + eta). { apply Rplus_le_compat_r. apply Rmult_le_compat_r; [left; apply Rinv_0_lt_compat; exact Pn|]. apply Rplus_le_compat_l. apply Rmult_le_compat_l; lra. }
  unfold E, dot_err. replace (((1 + u) * (rel u n * A + (1 + u) ^ n * (INR n * eta)) + u * A) / INR n) with (rel u (n + 1) * (A / INR n) + (1 + u) ^ (n + 1) * eta).
  - assert (eta <= (1 + u) ^ (n + 1) * eta) by nra. lra.
  - unfold rel. rewrite pow_add. field. lra.
Qed.

(** *** scores *)
Lemma sign_val (w : bf) : finite w -> B2R w <> 0 -> finite (bsignum prec emax Hp Hm w) /\ B2R (bsignum prec emax Hp Hm w) = rsign (B2R w).
Proof.
  intros F N. unfold bsignum. assert (Nw : is_nan w = false) by (destruct w; auto; discriminate). rewrite Nw. unfold rsign.
  destruct (Bsign w) eqn:S.
  - pose proof (sign_neg prec emax w F S). rewrite (proj2 (Rltb_spec (B2R w) 0)) by lra. split; [unfold SpecRound.finite; rewrite is_finite_Bopp; apply is_finite_Bone|]. rewrite B2R_Bopp. unfold bone. rewrite Bone_correct. reflexivity.
  - pose proof (sign_pos prec emax w F S). rewrite (proj2 (Rltb_false (B2R w) 0)) by lra. split; [apply is_finite_Bone|]. apply Bone_correct.
Qed.
Lemma score_err (wj g a : bf) : finite wj -> finite g -> finite a -> 0 <= B2R a -> finite (l1_score o (L1 a) wj g) ->
  Rabs (B2R (l1_score o (L1 a) wj g) - r_l1_score (B2R a) (B2R wj) (B2R g)) <= u * r_l1_score (B2R a) (B2R wj) (B2R g).
Proof.
  intros Fw Fg Fa Ha. unfold l1_score, r_l1_score. cbn [l1_alpha ieee_ops feq f0 fmax fsub fabs fneg fmul fsignum]. rewrite key_eq, (key_fin prec emax wj Fw). change (key prec emax (bzero prec emax)) with (Fin 0). cbn [xeq].
  pose proof (u_pos prec) as U. destruct (Reqb (B2R wj) 0) eqn:Ew; intros F.
  - assert (Fb : finite (Babs g)) by (unfold SpecRound.finite; rewrite is_finite_Babs; exact Fg).
    assert (S : nearest prec emax (bsub (Babs g) a) (B2R (Babs g) - B2R a)).
    { apply sub_round; auto. rewrite B2R_Babs. pose proof (abs_B2R_lt_emax prec emax g) as B1. pose proof (abs_B2R_lt_emax prec emax a) as B2. rewrite (Rabs_right (B2R a)) in B2 by lra. pose proof (Rabs_pos (B2R g)) as PG.
      destruct (Rle_dec (B2R a) (Rabs (B2R g))).
      - eapply Rle_lt_trans; [apply (fl_small prec emax Hp _ g Fg)|exact B1]. rewrite Rabs_right by lra. lra.
      - eapply Rle_lt_trans; [apply (fl_small prec emax Hp _ a Fa)|]; [rewrite Rabs_left, (Rabs_right (B2R a)) by lra; lra|rewrite Rabs_right by lra; exact B2]. }
    destruct S as [FS ES]. rewrite B2R_Babs in ES. destruct (max_fin (bzero prec emax) (bsub (Babs g) a) eq_refl FS) as [_ EM]. rewrite EM, ES. change (B2R (bzero prec emax)) with 0.
    destruct (Rle_dec (Rabs (B2R g)) (B2R a)) as [H|H].
    + rewrite (Rmax_left 0 (Rabs (B2R g) - B2R a)) by lra. rewrite Rmax_left by (rewrite <- (fl_0 prec emax); apply fl_le; [exact Hp|lra]). rewrite Rminus_0_r, Rabs_R0. lra.
    + rewrite (Rmax_right 0 (Rabs (B2R g) - B2R a)) by lra. rewrite Rmax_right by (rewrite <- (fl_0 prec emax) at 1; apply fl_le; [exact Hp|lra]).
      pose proof (fl_plus_err prec emax Hp (Rabs (B2R g)) (- B2R a) (generic_format_abs _ _ _ (fmt_val prec emax g)) (generic_format_opp _ _ _ (fmt_val prec emax a))) as E1.
      change (Rabs (B2R g) + - B2R a) with (Rabs (B2R g) - B2R a) in E1. rewrite (Rabs_right (Rabs (B2R g) - B2R a)) in E1 by lra. exact E1.
  - assert (Nw : B2R wj <> 0) by (intros H; rewrite H in Ew; rewrite (proj2 (Reqb_spec 0 0) eq_refl) in Ew; discriminate).
    unfold SpecRound.finite in F. rewrite is_finite_Babs in F. destruct (sub_fin prec emax Hp Hm _ _ F) as (_ & F2 & E). destruct (mul_fin prec emax Hp Hm _ _ F2) as (_ & _ & E2). destruct (sign_val wj Fw Nw) as [_ E3].
    rewrite E3 in E2. assert (E4 : fl (rsign (B2R wj) * B2R a) = rsign (B2R wj) * B2R a).
    { apply fl_id. unfold rsign. destruct (Rltb (B2R wj) 0). - replace (-1 * B2R a) with (- B2R a) by ring. apply generic_format_opp, fmt_val. - replace (1 * B2R a) with (B2R a) by ring. apply fmt_val. }
    rewrite E4 in E2. rewrite B2R_Babs, E, E2, B2R_Bopp. set (z := - B2R g - rsign (B2R wj) * B2R a).
    assert (E5 : Rabs (fl z - z) <= u * Rabs z).
    { unfold z. change (- B2R g - rsign (B2R wj) * B2R a) with (- B2R g + - (rsign (B2R wj) * B2R a)). apply fl_plus_err; [exact Hp|apply generic_format_opp, fmt_val|apply generic_format_opp]. rewrite <- E2. apply fmt_val. }
    eapply Rle_trans; [apply Rabs_triang_inv2|exact E5].
Qed.
Lemma r_score_lip a w g g' : Rabs (r_l1_score a w g - r_l1_score a w g') <= Rabs (g - g').
Proof.
  unfold r_l1_score. destruct (Reqb w 0).
  - pose proof (Rabs_triang_inv2 g g'). unfold Rmax. destruct (Rle_dec 0 (Rabs g - a)), (Rle_dec 0 (Rabs g' - a)).
    + replace (Rabs g - a - (Rabs g' - a)) with (Rabs g - Rabs g') by ring. exact H.
    + rewrite Rminus_0_r, Rabs_right by lra. pose proof (Rle_abs (Rabs g - Rabs g')). lra.
    + replace (0 - (Rabs g' - a)) with (- (Rabs g' - a)) by ring. rewrite Rabs_Ropp, Rabs_right by lra. pose proof (Rle_abs (Rabs g' - Rabs g)). rewrite Rabs_minus_sym in H0. lra.
    + rewrite Rminus_0_r, Rabs_R0. apply Rabs_pos.
  - eapply Rle_trans; [apply Rabs_triang_inv2|]. replace (- g - rsign w * a - (- g' - rsign w * a)) with (- (g - g')) by ring. rewrite Rabs_Ropp. lra.
Qed.
Lemma r_score_pos a w g : 0 <= r_l1_score a w g.
Proof. unfold r_l1_score. destruct (Reqb w 0); [apply Rmax_l|apply Rabs_pos]. Qed.

(** the score of a feature whose gradient is known up to [e] *)
Lemma score_dist (wj g a : bf) G e : finite wj -> finite g -> finite a -> 0 <= B2R a -> finite (l1_score o (L1 a) wj g) -> Rabs (B2R g - G) <= e ->
  exists d, is_dist (subgrad (abs_pen (B2R a)) (B2R wj)) (- G) d /\ Rabs (B2R (l1_score o (L1 a) wj g) - d) <= u * d + (1 + u) * e.
Proof.
  intros Fw Fg Fa Ha F HG. exists (r_l1_score (B2R a) (B2R wj) G). split; [apply r_l1_score_dist; exact Ha|].
  pose proof (score_err wj g a Fw Fg Fa Ha F) as E1. pose proof (r_score_lip (B2R a) (B2R wj) (B2R g) G) as E2. pose proof (u_pos prec) as U.
  set (s := r_l1_score (B2R a) (B2R wj) (B2R g)) in *. set (d := r_l1_score (B2R a) (B2R wj) G) in *.
  assert (E3 : Rabs (s - d) <= e) by lra. pose proof (abs_le_near _ _ _ E3) as E4. rewrite (Rabs_right s), (Rabs_right d) in E4 by (apply Rle_ge, r_score_pos).
  eapply Rle_trans; [exact (abs_mid _ _ _ _ _ E1 E3)|]. assert (u * s <= u * (d + e)) by (apply Rmult_le_compat_l; lra). lra.
Qed.

Lemma violation_at {DM D} (df : Datafit bf DM D) ds w Xw ws d a kkt mx k sc : opt_cond_violation df (l1_penalty o) ds w Xw ws d (L1 a) = Ret (kkt, mx) -> nth_error kkt k = Some sc ->
  exists j wj g, nth_error ws k = Some j /\ nth_error w j = Some wj /\ df_gradient_j df d ds Xw j = Ret g /\ sc = l1_score o (L1 a) wj g.
Proof.
  intros H Hk. unfold opt_cond_violation in H. destruct (construct_grad df ds Xw ws d) as [gr|] eqn:Eg; [|discriminate]. cbn [bind l1_penalty pen_subdiff_distance] in H. unfold scores in H.
  destruct (mapM _ (combine gr ws)) as [sc'|] eqn:Es; [|discriminate]. cbn [bind] in H. injection H as <- _. unfold construct_grad in Eg. apply mapM_inv in Eg, Es.
  revert sc' k gr Es Eg Hk. induction ws as [|j ws IH]; intros sc' k gr Es Eg Hk.
  - inversion Eg; subst. inversion Es; subst. destruct k; discriminate.
  - inversion Eg as [|? g ? gr' Q1 Q2]; subst. inversion Es as [|? s0 ? sc0 Q3 Q4]; subst. destruct k as [|k].
    + injection Hk as ->. cbn [fst snd] in Q3. unfold vget in Q3. destruct (nth_error w j) as [wj|] eqn:Ew; [|discriminate]. cbn [bind] in Q3. injection Q3 as <-. exists j, wj, g. auto.
    + cbn [nth_error] in Hk |- *. eapply IH; eauto.
Qed.
Lemma fold_max_ge l : forall a x, In x l -> is_nan x = false -> Bleb x (fold_max o a l) = true.
Proof.
  assert (K : forall l a, xisnan (key prec emax a) = false -> xle (key prec emax a) (key prec emax (fold_max o a l)) = true).
  { induction l0 as [|y l0 IH]; intros a Ha; unfold fold_max; cbn [fold_left ieee_ops fmax]. - destruct (key prec emax a); try discriminate; auto; cbn [xle]; apply Rleb_spec; lra.
    - fold (fold_max o (bmax prec emax a y) l0). assert (E : key prec emax (bmax prec emax a y) = xmax (key prec emax a) (key prec emax y)) by apply key_max.
      assert (L1' : xle (key prec emax a) (key prec emax (bmax prec emax a y)) = true). { rewrite E. destruct (xle_max_l (key prec emax a) (key prec emax y)) as [Q|Q]; [congruence|exact Q]. }
      eapply xle_trans; [exact L1'|]. apply IH. rewrite E. destruct (key prec emax a) as [r| | |], (key prec emax y) as [r'| | |]; try discriminate; cbn; auto; destruct (Rltb _ _); auto. }
  induction l as [|y l IH]; intros a x [].
  - subst y. intros Nx. unfold fold_max. cbn [fold_left ieee_ops fmax]. fold (fold_max o (bmax prec emax a x) l). rewrite key_le. assert (E : key prec emax (bmax prec emax a x) = xmax (key prec emax a) (key prec emax x)) by apply key_max.
    assert (L1' : xle (key prec emax x) (key prec emax (bmax prec emax a x)) = true). { rewrite E. destruct (xle_max_r (key prec emax x) (key prec emax a)) as [Q|Q]; [rewrite key_nan in Q; congruence|exact Q]. }
    eapply xle_trans; [exact L1'|]. apply K. rewrite E. rewrite <- key_nan in Nx. destruct (key prec emax a) as [r| | |], (key prec emax x) as [r'| | |]; try discriminate; cbn; auto; destruct (Rltb _ _); auto.
  - intros Nx. unfold fold_max. cbn [fold_left]. apply IH; auto.
Qed.
Lemma violation_max {DM D} (df : Datafit bf DM D) ds w Xw ws d a kkt mx sc tol : opt_cond_violation df (l1_penalty o) ds w Xw ws d (L1 a) = Ret (kkt, mx) -> In sc kkt -> finite sc -> finite tol ->
  fle o mx tol = true -> B2R sc <= B2R tol.
Proof.
  intros H Hi Fs Ft HL. assert (E : mx = fold_max o (fninf o) kkt).
  { unfold opt_cond_violation in H. destruct (construct_grad df ds Xw ws d) as [gr|]; [|discriminate]. cbn [bind l1_penalty pen_subdiff_distance] in H. unfold scores in H.
    destruct (mapM _ (combine gr ws)) as [sc'|]; [|discriminate]. cbn [bind] in H. injection H as <- <-. reflexivity. }
  assert (Q : Bleb sc mx = true) by (rewrite E; apply fold_max_ge; [exact Hi|destruct sc; auto; discriminate]). cbn [ieee_ops fle] in HL. rewrite key_le in Q, HL.
  pose proof (xle_trans _ _ _ Q HL) as T. rewrite (key_fin prec emax sc Fs), (key_fin prec emax tol Ft) in T. cbn [xle] in T. apply Rleb_spec in T. exact T.
Qed.

(** *** the maintained model fit *)
Section Sweep.
Context {D P : Type} (df : Datafit bf (mat bf) D) (pen : Penalty bf P) (n p : nat) (X : mat bf) (t : targets bf) (d : D) (q : P) (SX : shaped n p X).
Local Notation at_ l i := (B2R (nth i l (f0 o))).
Local Notation ent i j := (B2R (nth i (col X j) (f0 o))).
Local Notation step := (cd_step o (dense_dm o) df pen (Dataset X t) d q).
Lemma nth_map2 {A B C} (f : A -> B -> C) : forall a b i da db dc, (i < length a)%nat -> length a = length b -> nth i (map2 f a b) dc = f (nth i a da) (nth i b db).
Proof.
  induction a as [|x a IH]; intros b i da db dc H L; [simpl in H; lia|]. destruct b as [|y b]; [discriminate|]. destruct i as [|i]; [reflexivity|]. cbn. apply IH; simpl in *; lia.
Qed.
Lemma step_track w Xw w' Xw' j i : length Xw = n -> step (w, Xw) j = Ret (w', Xw') -> (i < n)%nat -> finite (nth i Xw' (f0 o)) ->
  length Xw' = n /\ finite (nth i Xw (f0 o)) /\ (forall k, k <> j -> nth k w' (f0 o) = nth k w (f0 o)) /\
  Rabs (at_ Xw' i - at_ Xw i - (at_ w' j - at_ w j) * ent i j) <= u * Rabs (at_ Xw i) + rel u 3 * Rabs ((at_ w' j - at_ w j) * ent i j) + (1 + u) * eta.
Proof using SX.
  intros LX H Hi F. pose proof (u_pos prec) as U. pose proof (eta_pos prec emax) as Q. pose proof (rel_pos prec 3) as R3.
  assert (TR : forall r, 0 <= r -> 0 <= u * Rabs (at_ Xw i) + rel u 3 * Rabs r + (1 + u) * eta).
  { intros r _. pose proof (Rabs_pos (at_ Xw i)). pose proof (Rabs_pos r). assert (0 <= u * Rabs (at_ Xw i)) by (apply Rmult_le_pos; lra). assert (0 <= rel u 3 * Rabs r) by (apply Rmult_le_pos; lra). nra. }
  unfold cd_step in H. destruct (vget (df_step_size df d) j) as [lip|]; [|discriminate]. cbn [bind] in H. destruct (feq o lip (f0 o)).
  - injection H as <- <-. split; [exact LX|split; [exact F|split; [reflexivity|]]]. replace (at_ Xw i - at_ Xw i - (at_ w j - at_ w j) * ent i j) with 0 by ring. replace ((at_ w j - at_ w j) * ent i j) with 0 by ring. rewrite Rabs_R0 at 1. apply TR. lra.
  - destruct (vget w j) as [old|] eqn:Eo; [|discriminate]. cbn [bind] in H. destruct (df_gradient_j df d (Dataset X t) Xw j) as [g|]; [|discriminate]. cbn [bind] in H.
    set (new := pen_prox pen q (fsub o old (fdiv o g lip)) (fdiv o (f1 o) lip)) in *. destruct (vset w j new) as [w1|] eqn:Ew; [|discriminate]. cbn [bind] in H.
    destruct (vget_inv w j old Eo) as [Hj Eold]. specialize (Eold (f0 o)). rewrite vset_ok in Ew by exact Hj. injection Ew as <-.
    assert (OTH : forall k, k <> j -> nth k (upd w j new) (f0 o) = nth k w (f0 o)).
    { intros k Hk. rewrite nth_upd. destruct (k =? j)%nat eqn:Ek; [apply Nat.eqb_eq in Ek; congruence|reflexivity]. }
    assert (SEL : nth j (upd w j new) (f0 o) = new). { rewrite nth_upd, Nat.eqb_refl. apply Nat.ltb_lt in Hj. rewrite Hj. reflexivity. }
    destruct (negb (feq o (fsub o new old) (f0 o))) eqn:Ed.
    + cbn [dense_dm dm_update design_matrix] in H. unfold dense_update in H. destruct (mcol (f0 o) X j) as [c|] eqn:Ec; [|discriminate]. cbn [bind] in H. unfold vaxpy in H.
      assert (Ecol : c = col X j). { unfold mcol in Ec. destruct (j <? mnc X)%nat; [|discriminate]. injection Ec as <-. reflexivity. } subst c.
      assert (EL : length Xw = length (col X j)) by (rewrite (col_len prec emax Hp Hm m n p X j SX); lia). rewrite EL, Nat.eqb_refl in H. cbn [bind] in H. injection H as <- <-.
      split; [unfold map2; rewrite map_length, combine_length, (col_len prec emax Hp Hm m n p X j SX); lia|].
      rewrite (nth_map2 _ Xw (col X j) i (f0 o) (f0 o) (f0 o)) in F |- * by (auto; lia). cbn [ieee_ops fadd fmul fsub f0] in F |- *.
      destruct (add_fin prec emax Hp Hm _ _ F) as (F1 & F2 & E1). destruct (mul_fin prec emax Hp Hm _ _ F2) as (F3 & F4 & E2). destruct (sub_fin prec emax Hp Hm _ _ F3) as (F5 & F6 & E3).
      split; [exact F1|]. split; [exact OTH|]. cbn [ieee_ops f0] in SEL, Eold |- *. rewrite SEL, Eold, E1, E2, E3.
      pose proof (fl_plus_err prec emax Hp (B2R new) (- B2R old) (fmt_val prec emax new) (generic_format_opp _ _ _ (fmt_val prec emax old))) as D1. change (B2R new + - B2R old) with (B2R new - B2R old) in D1.
      set (dl := B2R new - B2R old) in *. set (xi := B2R (nth i (col X j) (bzero prec emax))) in *. set (Xi := B2R (nth i Xw (bzero prec emax))) in *.
      pose proof (fl_err prec emax Hp (fl dl * xi)) as D2. set (pr := fl (fl dl * xi)) in *.
      assert (D3 : Rabs (Xi + pr - fl (Xi + pr)) <= u * Rabs (Xi + pr)). { rewrite Rabs_minus_sym. apply fl_plus_err; [exact Hp|apply fmt_val|]. unfold pr. rewrite <- E3, <- E2. apply fmt_val. }
      rewrite Rabs_minus_sym in D3. pose proof (Rabs_pos xi) as Pxi. pose proof (Rabs_pos dl) as Pdl. pose proof (Rabs_pos Xi) as PXi.
      assert (D4 : Rabs (fl dl * xi - dl * xi) <= u * Rabs (dl * xi)). { replace (fl dl * xi - dl * xi) with ((fl dl - dl) * xi) by ring. rewrite !Rabs_mult. replace (u * (Rabs dl * Rabs xi)) with ((u * Rabs dl) * Rabs xi) by ring. apply Rmult_le_compat_r; auto. }
      pose proof (abs_le_near _ _ _ D4) as D5. assert (D6 : Rabs (pr - dl * xi) <= rel u 2 * Rabs (dl * xi) + eta).
      { eapply Rle_trans; [exact (abs_mid _ _ _ _ _ D2 D4)|]. assert (u * Rabs (fl dl * xi) <= u * (Rabs (dl * xi) + u * Rabs (dl * xi))) by (apply Rmult_le_compat_l; lra). unfold rel. simpl. lra. }
      pose proof (abs_le_near _ _ _ D6) as D7. assert (D8 : Rabs (Xi + pr) <= Rabs Xi + (Rabs (dl * xi) + (rel u 2 * Rabs (dl * xi) + eta))). { eapply Rle_trans; [apply Rabs_triang|]. lra. }
      replace (fl (Xi + pr) - Xi - dl * xi) with ((fl (Xi + pr) - (Xi + pr)) + (pr - dl * xi)) by ring. eapply Rle_trans; [apply Rabs_triang|].
      assert (u * Rabs (Xi + pr) <= u * (Rabs Xi + (Rabs (dl * xi) + (rel u 2 * Rabs (dl * xi) + eta)))) by (apply Rmult_le_compat_l; lra).
      assert (EQ : rel u 3 = u + u * rel u 2 + rel u 2) by (unfold rel; ring). rewrite EQ. nra.
    + injection H as <- <-. split; [exact LX|split; [exact F|split; [exact OTH|]]]. apply negb_false_iff in Ed. cbn [ieee_ops feq fsub f0] in Ed.
      assert (Z : bsub new old = B754_zero true \/ bsub new old = B754_zero false). { destruct (bsub new old) as [[]|s| |s mm e b]; auto; exfalso; [destruct s; discriminate|discriminate|destruct s; discriminate]. }
      assert (FZ : is_finite (bsub new old) = true) by (destruct Z as [Z|Z]; rewrite Z; reflexivity). assert (VZ : B2R (bsub new old) = 0) by (destruct Z as [Z|Z]; rewrite Z; reflexivity).
      destruct (sub_fin prec emax Hp Hm _ _ FZ) as (_ & _ & E). rewrite VZ in E. symmetry in E.
      assert (B2R new + - B2R old = 0). { apply (round_plus_eq_0 radix2 (FLT_exp (3 - emax - prec) prec) ZnearestE (B2R new) (- B2R old)); [apply fmt_val|apply generic_format_opp, fmt_val|exact E]. }
      rewrite SEL, Eold. replace (B2R new - B2R old) with 0 by lra. replace (at_ Xw i - at_ Xw i - 0 * ent i j) with 0 by ring. rewrite Rabs_R0 at 1. apply TR. lra.
Qed.
Lemma step_len w Xw w' Xw' j : length Xw = n -> step (w, Xw) j = Ret (w', Xw') -> length Xw' = n.
Proof.
  intros LX E. unfold cd_step in E. destruct (vget (df_step_size df d) j); [|discriminate]. cbn [bind] in E. destruct (feq o _ _); [injection E as _ <-; exact LX|].
  destruct (vget w j); [|discriminate]. cbn [bind] in E. destruct (df_gradient_j _ _ _ _ _); [|discriminate]. cbn [bind] in E. destruct (vset w j _) as [w2|] eqn:Ew; [|discriminate]. cbn [bind] in E.
  destruct (negb _); [|injection E as _ <-; exact LX]. cbn [dense_dm dm_update design_matrix] in E. unfold dense_update in E. destruct (mcol (f0 o) X j) as [c|] eqn:Ec; [|discriminate]. cbn [bind] in E. unfold vaxpy in E.
  destruct (length Xw =? length c)%nat eqn:EL; [|destruct c as [|? [|]]; try discriminate; injection E as _ <-; rewrite map_length; exact LX]. cbn [bind] in E. injection E as _ <-. apply Nat.eqb_eq in EL. unfold map2. rewrite map_length, combine_length. lia.
Qed.
Lemma steps_other ws : forall w Xw w' Xw' k, length Xw = n -> foldM step ws (w, Xw) = Ret (w', Xw') -> ~ In k ws -> nth k w' (f0 o) = nth k w (f0 o).
Proof.
  induction ws as [|j ws IH]; intros w Xw w' Xw' k LX H Hk; cbn [foldM] in H; [injection H as <- _; reflexivity|].
  destruct (step (w, Xw) j) as [[w1 X1]|] eqn:E; [|discriminate]. cbn [bind] in H. rewrite (IH w1 X1 w' Xw' k); auto; try (intros Q; apply Hk; right; exact Q).
  - unfold cd_step in E. destruct (vget (df_step_size df d) j); [|discriminate]. cbn [bind] in E. destruct (feq o _ _); [injection E as <- _; reflexivity|].
    destruct (vget w j); [|discriminate]. cbn [bind] in E. destruct (df_gradient_j _ _ _ _ _); [|discriminate]. cbn [bind] in E. destruct (vset w j _) as [w2|] eqn:Ew; [|discriminate]. cbn [bind] in E.
    assert (w1 = w2). { destruct (negb _); [destruct (dm_update _ _ _ _ _); [|discriminate]; cbn [bind] in E|]; injection E as <- _; reflexivity. } subst w2.
    unfold vset in Ew. destruct (j <? length w)%nat; [|discriminate]. injection Ew as <-. rewrite nth_upd. destruct (k =? j)%nat eqn:Ek; [apply Nat.eqb_eq in Ek; subst; exfalso; apply Hk; left; reflexivity|reflexivity].
  - exact (step_len w Xw w1 X1 j LX E).
Qed.
Lemma sweep_track ws : forall w Xw w' Xw' i, NoDup ws -> length Xw = n -> foldM step ws (w, Xw) = Ret (w', Xw') -> (i < n)%nat -> finite (nth i Xw' (f0 o)) ->
  length Xw' = n /\ finite (nth i Xw (f0 o)) /\
  Rabs (at_ Xw' i - at_ Xw i - rsum (map (fun j => (at_ w' j - at_ w j) * ent i j) ws)) <=
    rel u (length ws) * Rabs (at_ Xw i) + rel u (length ws + 2) * rsum (map (fun j => Rabs ((at_ w' j - at_ w j) * ent i j)) ws) + INR (length ws) * (1 + u) ^ length ws * eta.
Proof using SX.
  induction ws as [|j ws IH]; intros w Xw w' Xw' i ND LX H Hi F; cbn [foldM] in H.
  - injection H as <- <-. split; [exact LX|split; [exact F|]]. cbn [map rsum fold_right length INR]. rewrite rel_0, Rminus_0_r, Rminus_eq_0, Rabs_R0. lra.
  - destruct (step (w, Xw) j) as [[w1 X1]|] eqn:E; [|discriminate]. cbn [bind] in H. apply NoDup_cons_iff in ND as [Nj ND'].
    pose proof (step_len w Xw w1 X1 j LX E) as LX1.
    destruct (IH w1 X1 w' Xw' i ND' LX1 H Hi F) as (L' & F1 & B). destruct (step_track w Xw w1 X1 j i LX E Hi F1) as (_ & F0 & OT & A).
    split; [exact L'|split; [exact F0|]]. assert (Ej : nth j w' (f0 o) = nth j w1 (f0 o)) by exact (steps_other ws w1 X1 w' Xw' j LX1 H Nj).
    assert (M1 : map (fun k => (at_ w' k - at_ w k) * ent i k) ws = map (fun k => (at_ w' k - at_ w1 k) * ent i k) ws). { apply map_ext_in. intros k Hk. rewrite OT; [reflexivity|intros ->; contradiction]. }
    assert (M2 : map (fun k => Rabs ((at_ w' k - at_ w k) * ent i k)) ws = map (fun k => Rabs ((at_ w' k - at_ w1 k) * ent i k)) ws). { apply map_ext_in. intros k Hk. rewrite OT; [reflexivity|intros ->; contradiction]. }
    cbn [map rsum fold_right length]. fold (rsum (map (fun k => (at_ w' k - at_ w k) * ent i k) ws)). fold (rsum (map (fun k => Rabs ((at_ w' k - at_ w k) * ent i k)) ws)). rewrite M1, M2, Ej.
    set (S' := rsum (map (fun k => (at_ w' k - at_ w1 k) * ent i k) ws)) in *. set (D' := rsum (map (fun k => Rabs ((at_ w' k - at_ w1 k) * ent i k)) ws)) in *. set (dl := (at_ w1 j - at_ w j) * ent i j) in *.
    set (k := length ws) in *. set (x0 := at_ Xw i) in *. set (x1 := at_ X1 i) in *. set (x2 := at_ Xw' i) in *.
    assert (PD : 0 <= D') by (unfold D'; rewrite <- (map_map (fun k => (at_ w' k - at_ w1 k) * ent i k) Rabs); apply rsum_abs_pos).
    pose proof (u_pos prec) as U. pose proof (eta_pos prec emax) as Q. pose proof (rel_pos prec k) as Rk. pose proof (Rabs_pos x0) as P0. pose proof (Rabs_pos dl) as Pd.
    assert (X1B : Rabs x1 <= Rabs x0 + Rabs dl + (u * Rabs x0 + rel u 3 * Rabs dl + (1 + u) * eta)).
    { replace x1 with ((x1 - x0 - dl) + (x0 + dl)) by ring. eapply Rle_trans; [apply Rabs_triang|]. pose proof (Rabs_triang x0 dl). lra. }
    replace (x2 - x0 - (dl + S')) with ((x2 - x1 - S') + (x1 - x0 - dl)) by ring. eapply Rle_trans; [apply Rabs_triang|].
    assert (Y : rel u k * Rabs x1 <= rel u k * (Rabs x0 + Rabs dl + (u * Rabs x0 + rel u 3 * Rabs dl + (1 + u) * eta))) by (apply Rmult_le_compat_l; lra).
    set (W := (1 + u) ^ k) in *. assert (EW : rel u k = W - 1) by reflexivity. assert (W1 : 1 <= W) by (unfold W; apply pow_R1_Rle; lra).
    assert (R3 : rel u (S k) = W * (1 + u) - 1) by (unfold rel, W; simpl; ring). assert (R4 : rel u (S k + 2) = W * (1 + u) ^ 3 - 1) by (unfold rel, W; rewrite pow_add; simpl; ring).
    assert (R5 : rel u (k + 2) <= rel u (S k + 2)) by (apply rel_mono; lia). assert (R6 : rel u (k + 2) * D' <= rel u (S k + 2) * D') by (apply Rmult_le_compat_r; auto).
    assert (E3 : rel u 3 = (1 + u) ^ 3 - 1) by reflexivity.
    assert (N1 : INR k * W * eta + W * (1 + u) * eta <= (INR k + 1) * (W * (1 + u)) * eta). { pose proof (pos_INR k). assert (0 <= INR k * W * eta) by (repeat apply Rmult_le_pos; lra). nra. }
    rewrite S_INR. change ((1 + u) ^ S k) with ((1 + u) * W). rewrite EW in *.
    assert (T1 : (W - 1) * (Rabs x0 + Rabs dl + (u * Rabs x0 + rel u 3 * Rabs dl + (1 + u) * eta)) + (u * Rabs x0 + rel u 3 * Rabs dl + (1 + u) * eta) = rel u (S k) * Rabs x0 + rel u (S k + 2) * Rabs dl + W * (1 + u) * eta).
    { rewrite R3, R4, E3. ring. }
    replace ((INR k + 1) * ((1 + u) * W) * eta) with ((INR k + 1) * (W * (1 + u)) * eta) by ring. lra.
Qed.
End Sweep.
End I.
