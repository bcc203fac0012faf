(** What a passed stopping test certifies in floating point, for the elastic net. *)
From Coq Require Import List ZArith Bool Arith Lia Reals Lra Permutation.
From Flocq Require Import Core BinarySingleNaN.
From Verif Require Import Ops Arr XR IEEE RSum SpecPen SpecRound SpecData SpecSolve SpecOpt SpecTrace SpecDrift SpecDriftEnet PBase PLaws PNullLaws PSubdiff PFloat PRoundFit PRoundKkt PRoundTop PTrace PDrift PDriftInst PData PDataProps PDatafit PCalc PFitOpt PCert PRoundCert PTraceFit MUtils MDatasets MDatafits MPenalties MCd MHyper MEstimators.
Import ListNotations.
Open Scope R_scope.

Section I.
Context (prec emax : Z) (Hp : Prec_gt_0 prec) (Hm : Prec_lt_emax prec emax) (m : libm prec emax).
Local Notation bf := (binary_float prec emax).
Local Notation o := (ieee_ops prec emax Hp Hm m).
Local Notation fl := (fl prec emax).
Local Notation u := (urd prec).
Local Notation eta := (tiny prec emax).
Local Notation atR := (atR prec emax).
Local Notation finite := (finite prec emax).
Local Notation bsub := (bsub prec emax Hp Hm).
Local Notation bmul := (bmul prec emax Hp Hm).
Local Notation badd := (badd prec emax Hp Hm).
Local Notation bone := (bone prec emax Hp Hm).
Local Notation sgn := (bsignum prec emax Hp Hm).
Local Notation ps := (pen_slack prec emax).

Lemma mul_small (x y z : bf) : finite x -> finite y -> finite z -> Rabs (B2R x * B2R y) <= Rabs (B2R z) -> finite (bmul x y) /\ B2R (bmul x y) = fl (B2R x * B2R y).
Proof.
  intros Fx Fy Fz H. pose proof (Bmult_correct prec emax Hp Hm mode_NE x y) as C. rewrite Rlt_bool_true in C.
  - destruct C as (C1 & C2 & _). unfold SpecRound.finite, IEEE.bmul. rewrite C2, Fx, Fy. split; [reflexivity|exact C1].
  - eapply Rle_lt_trans; [apply (fl_small prec emax Hp _ z Fz H)|apply abs_B2R_lt_emax].
Qed.
Lemma add_num (x y : bf) : finite x -> finite y -> is_nan (badd x y) = false.
Proof.
  intros Fx Fy. pose proof (Bplus_correct prec emax Hp Hm mode_NE x y Fx Fy) as C. destruct (Rlt_bool _ _).
  - destruct C as (_ & C & _). unfold IEEE.badd. destruct (Bplus mode_NE x y); try discriminate; reflexivity.
  - destruct C as [C _]. unfold IEEE.badd. destruct (Bplus mode_NE x y) as [s|s| |s mm e b]; try reflexivity. unfold binary_overflow in C. destruct (overflow_to_inf _ _); discriminate C.
Qed.
Lemma mul_num (x y : bf) : finite x -> B2R x <> 0 -> is_nan y = false -> is_nan (bmul x y) = false.
Proof.
  intros Fx Nx Ny. destruct y as [s|s| |s my ey by_]; try discriminate Ny.
  - destruct x as [sx|sx| |sx mx ex bx]; try discriminate Fx; reflexivity.
  - destruct x as [sx|sx| |sx mx ex bx]; try discriminate Fx; [exfalso; apply Nx; reflexivity|reflexivity].
  - set (y := B754_finite s my ey by_). pose proof (Bmult_correct prec emax Hp Hm mode_NE x y) as C. destruct (Rlt_bool _ _).
    + destruct C as (_ & C & _). rewrite Fx in C. unfold IEEE.bmul. destruct (Bmult mode_NE x y); try discriminate C; reflexivity.
    + unfold IEEE.bmul. destruct (Bmult mode_NE x y) as [s'|s'| |s' mm e b]; try reflexivity. unfold binary_overflow in C. destruct (overflow_to_inf _ _); discriminate C.
Qed.
Lemma beq0 (w : bf) : finite w -> Beqb w (bzero prec emax) = true -> B2R w = 0.
Proof. intros Fw E. rewrite key_eq, (key_fin prec emax w Fw) in E. change (key prec emax (bzero prec emax)) with (Fin 0) in E. cbn [xeq] in E. apply Reqb_spec in E. exact E. Qed.
Lemma bne0 (w : bf) : finite w -> Beqb w (bzero prec emax) = false -> B2R w <> 0.
Proof. intros Fw E Q. rewrite key_eq, (key_fin prec emax w Fw), Q in E. change (key prec emax (bzero prec emax)) with (Fin 0) in E. cbn [xeq] in E. rewrite (proj2 (Reqb_spec 0 0) eq_refl) in E. discriminate. Qed.
Lemma bone_val : finite bone /\ B2R bone = 1.
Proof. split; [apply is_finite_Bone|apply Bone_correct]. Qed.

Context (a r : bf) (Fa : finite a) (Fr : finite r) (Ha : 0 < B2R a) (Hr : 0 <= B2R r <= 1).
Lemma one_minus : finite (bsub bone r) /\ B2R (bsub bone r) = fl (1 - B2R r) /\ 0 <= fl (1 - B2R r) <= 1 /\ Rabs (fl (1 - B2R r) - (1 - B2R r)) <= u * (1 - B2R r).
Proof using Fr Hr.
  destruct bone_val as [F1 E1]. assert (R : 0 <= fl (1 - B2R r) <= 1).
  { split; [rewrite <- (fl_0 prec emax); apply fl_le; [exact Hp|lra]|]. assert (Q : fl 1 = 1) by (apply fl_id; rewrite <- E1; apply fmt_val). rewrite <- Q. apply fl_le; [exact Hp|lra]. }
  assert (S : nearest prec emax (bsub bone r) (B2R bone - B2R r)).
  { apply sub_round; auto. rewrite E1. rewrite Rabs_right by lra. apply Rle_lt_trans with (Rabs (B2R bone)); [rewrite E1, Rabs_R1; lra|apply abs_B2R_lt_emax]. }
  destruct S as [FS ES]. rewrite E1 in ES. split; [exact FS|]. split; [exact ES|]. split; [exact R|].
  pose proof (fl_plus_err prec emax Hp 1 (- B2R r)) as Q. change (1 + - B2R r) with (1 - B2R r) in Q. rewrite (Rabs_right (1 - B2R r)) in Q by lra. apply Q; [rewrite <- E1; apply fmt_val|apply generic_format_opp, fmt_val].
Qed.
(** the threshold at a zero coefficient *)
Lemma thr0 : finite (bmul a r) /\ 0 <= B2R (bmul a r) /\ Rabs (B2R (bmul a r) - B2R a * B2R r) <= ps (B2R a) (B2R r) 0.
Proof using Fa Fr Ha Hr.
  assert (P : 0 <= B2R a * B2R r) by (apply Rmult_le_pos; lra). assert (Q : B2R a * B2R r <= B2R a) by nra.
  destruct (mul_small a r a Fa Fr Fa) as [F1 E1]; [rewrite !Rabs_right by lra; exact Q|]. rewrite E1. split; [exact F1|]. split; [rewrite <- (fl_0 prec emax); apply fl_le; [exact Hp|exact P]|].
  eapply Rle_trans; [apply fl_err; exact Hp|]. rewrite (Rabs_right (B2R a * B2R r)) by lra. unfold pen_slack. rewrite Rabs_R0, Rmult_0_r, Rplus_0_r. pose proof (u_pos prec) as U. pose proof (eta_pos prec emax) as T.
  assert (u <= rel u 4) by (unfold rel; simpl; nra). assert (0 <= (1 + u) ^ 2 * B2R a * eta) by (apply Rmult_le_pos; [apply Rmult_le_pos; [apply pow_le|]|]; lra).
  assert (u * (B2R a * B2R r) <= rel u 4 * (B2R a * B2R r)) by (apply Rmult_le_compat_r; lra). lra.
Qed.
(** the derivative of the penalty at a nonzero coefficient *)
Lemma thr1 (w : bf) : finite w -> B2R w <> 0 -> let C := badd (bmul (sgn w) r) (bmul (bsub bone r) w) in
  is_nan (bmul a C) = false /\ (finite (bmul a C) -> Rabs (B2R (bmul a C) - B2R a * (rsign (B2R w) * B2R r + (1 - B2R r) * B2R w)) <= ps (B2R a) (B2R r) (B2R w)).
Proof using Fa Fr Ha Hr.
  intros Fw Nw C. destruct (sign_val prec emax Hp Hm w Fw Nw) as [Fs Es]. destruct one_minus as (FA & EA & RA & DA).
  assert (AS : Rabs (rsign (B2R w) * B2R r) = B2R r) by (unfold rsign; destruct (Rltb (B2R w) 0); [replace (-1 * B2R r) with (- B2R r) by ring; rewrite Rabs_Ropp|rewrite Rmult_1_l]; apply Rabs_right; lra).
  destruct (mul_small (sgn w) r r Fs Fr Fr) as [F1 E1]; [rewrite Es, AS, Rabs_right by lra; lra|]. rewrite Es in E1. assert (E1' : fl (rsign (B2R w) * B2R r) = rsign (B2R w) * B2R r).
  { apply fl_id. unfold rsign. destruct (Rltb (B2R w) 0). - replace (-1 * B2R r) with (- B2R r) by ring. apply generic_format_opp, fmt_val. - replace (1 * B2R r) with (B2R r) by ring. apply fmt_val. }
  rewrite E1' in E1. set (A := bsub bone r) in *. set (al := fl (1 - B2R r)) in *. set (rr := B2R r) in *. set (x := B2R w) in *.
  assert (PX : 0 <= Rabs x) by apply Rabs_pos.
  destruct (mul_small A w w FA Fw Fw) as [F2 E2]; [rewrite EA, Rabs_mult, (Rabs_right al) by lra; fold x; nra|]. rewrite EA in E2. fold x in E2.
  assert (NC : is_nan C = false) by (apply add_num; auto). split; [apply mul_num; auto; lra|]. intros F. destruct (mul_fin prec emax Hp Hm _ _ F) as (_ & FC & EM). destruct (add_fin prec emax Hp Hm _ _ FC) as (_ & _ & EC).
  pose proof (u_pos prec) as U. pose proof (eta_pos prec emax) as T.
  set (B := B2R (bmul A w)) in *. assert (DB : Rabs (B - (1 - rr) * x) <= rel u 2 * ((1 - rr) * Rabs x) + eta).
  { rewrite E2. assert (D1 : Rabs (fl (al * x) - al * x) <= u * (al * Rabs x) + eta). { eapply Rle_trans; [apply fl_err; exact Hp|]. rewrite Rabs_mult, (Rabs_right al) by lra. lra. }
    assert (D2 : Rabs (al * x - (1 - rr) * x) <= u * (1 - rr) * Rabs x). { replace (al * x - (1 - rr) * x) with ((al - (1 - rr)) * x) by ring. rewrite Rabs_mult. apply Rmult_le_compat_r; auto. }
    assert (D3 : al <= (1 + u) * (1 - rr)) by (apply Rabs_le_inv in DA; lra). eapply Rle_trans; [exact (abs_mid _ _ _ _ _ D1 D2)|].
    assert (u * (al * Rabs x) <= u * ((1 + u) * (1 - rr) * Rabs x)) by (apply Rmult_le_compat_l; [lra|apply Rmult_le_compat_r; lra]).
    replace (rel u 2 * ((1 - rr) * Rabs x)) with (u * ((1 + u) * (1 - rr) * Rabs x) + u * (1 - rr) * Rabs x) by (unfold rel; simpl; ring). lra. }
  set (sg := rsign x * rr) in *. rewrite E1 in EC. fold B in EC. change (B2R C = fl (sg + B)) in EC. clearbody C.
  assert (AB : Rabs (1 - rr) = 1 - rr) by (apply Rabs_right; lra).
  set (q := rr + (1 - rr) * Rabs x). assert (Pq : 0 <= q) by (unfold q; assert (0 <= (1 - rr) * Rabs x) by (apply Rmult_le_pos; lra); lra).
  assert (PM : 0 <= (1 - rr) * Rabs x) by (apply Rmult_le_pos; lra).
  assert (Hq : Rabs (sg + (1 - rr) * x) <= q). { eapply Rle_trans; [apply Rabs_triang|]. rewrite AS, Rabs_mult, AB. unfold q. lra. }
  assert (DC : Rabs (B2R C - (sg + (1 - rr) * x)) <= rel u 3 * q + (1 + u) * eta).
  { rewrite EC. pose proof (fl_plus_err prec emax Hp sg B) as D1. assert (D1' : Rabs (fl (sg + B) - (sg + B)) <= u * Rabs (sg + B)) by (apply D1; [rewrite <- E1; apply fmt_val|apply fmt_val]). clear D1.
    assert (D2 : Rabs (sg + B - (sg + (1 - rr) * x)) <= rel u 2 * ((1 - rr) * Rabs x) + eta) by (replace (sg + B - (sg + (1 - rr) * x)) with (B - (1 - rr) * x) by ring; exact DB).
    eapply Rle_trans; [exact (abs_mid _ _ _ _ _ D1' D2)|]. pose proof (abs_le_near _ _ _ D2) as D3. pose proof (rel_pos prec 2) as R2.
    assert (M1 : (1 - rr) * Rabs x <= q) by (unfold q; lra). assert (M2 : rel u 2 * ((1 - rr) * Rabs x) <= rel u 2 * q) by (apply Rmult_le_compat_l; auto).
    assert (M3 : u * Rabs (sg + B) <= u * (q + (rel u 2 * q + eta))) by (apply Rmult_le_compat_l; lra).
    replace (rel u 3 * q + (1 + u) * eta) with (u * (q + (rel u 2 * q + eta)) + (rel u 2 * q + eta)) by (unfold rel; simpl; ring). lra. }
  rewrite EM. pose proof (fl_err prec emax Hp (B2R a * B2R C)) as D1. set (z := sg + (1 - rr) * x) in *.
  assert (D2 : Rabs (B2R a * B2R C - B2R a * z) <= B2R a * (rel u 3 * q + (1 + u) * eta)). { replace (B2R a * B2R C - B2R a * z) with (B2R a * (B2R C - z)) by ring. rewrite Rabs_mult, (Rabs_right (B2R a)) by lra. apply Rmult_le_compat_l; lra. }
  eapply Rle_trans; [exact (abs_mid _ _ _ _ _ D1 D2)|]. pose proof (abs_le_near _ _ _ D2) as D3. assert (D4 : Rabs (B2R a * z) <= B2R a * q) by (rewrite Rabs_mult, (Rabs_right (B2R a)) by lra; apply Rmult_le_compat_l; lra).
  assert (M3 : u * Rabs (B2R a * B2R C) <= u * (B2R a * q + B2R a * (rel u 3 * q + (1 + u) * eta))) by (apply Rmult_le_compat_l; lra).
  unfold pen_slack. fold rr. fold q. replace (rel u 4 * (B2R a * q) + ((1 + u) ^ 2 * B2R a * eta + eta)) with (u * (B2R a * q + B2R a * (rel u 3 * q + (1 + u) * eta)) + eta + B2R a * (rel u 3 * q + (1 + u) * eta)) by (unfold rel; simpl; ring). lra.
Qed.
Lemma ps_pos x : 0 <= ps (B2R a) (B2R r) x.
Proof using Ha Hr.
  unfold pen_slack. pose proof (u_pos prec) as U. pose proof (eta_pos prec emax) as T. pose proof (rel_pos prec 4). pose proof (Rabs_pos x).
  assert (0 <= B2R a * (B2R r + (1 - B2R r) * Rabs x)) by (apply Rmult_le_pos; [lra|]; assert (0 <= (1 - B2R r) * Rabs x) by (apply Rmult_le_pos; lra); lra).
  assert (0 <= (1 + u) ^ 2 * B2R a * eta) by (apply Rmult_le_pos; [apply Rmult_le_pos; [apply pow_le|]|]; lra). assert (0 <= rel u 4 * (B2R a * (B2R r + (1 - B2R r) * Rabs x))) by (apply Rmult_le_pos; lra). lra.
Qed.
(** a passed score bounds the exact distance *)
Lemma passed (wj g tol : bf) G e : finite wj -> finite g -> finite tol -> (is_nan (l1l2_score o (L1PlusL2 a r) wj g) = false -> Bleb (l1l2_score o (L1PlusL2 a r) wj g) tol = true) -> Rabs (B2R g - G) <= e ->
  exists d, is_dist (subgrad (enet_pen (B2R a) (B2R r)) (B2R wj)) (- G) d /\ (1 - u) * d <= B2R tol + (1 + u) * (e + ps (B2R a) (B2R r) (B2R wj)).
Proof using Fa Fr Ha Hr.
  intros Fw Fg Ft H HG. exists (r_l1l2_score (B2R a) (B2R r) (B2R wj) G). split; [apply r_l1l2_score_dist; lra|].
  pose proof (u_pos prec) as U. pose proof (u_le1 prec Hp) as U2. pose proof (ps_pos (B2R wj)) as PP. assert (Pe : 0 <= e) by (pose proof (Rabs_pos (B2R g - G)); lra).
  unfold l1l2_score in H. cbn [en_alpha en_l1_ratio ieee_ops feq f0 f1 fmax fsub fabs fneg fmul fadd fsignum] in H. destruct (Beqb wj (bzero prec emax)) eqn:Ew.
  - pose proof (beq0 wj Fw Ew) as Z. destruct thr0 as (Ft0 & P0 & D0).
    assert (ES : l1_score o (L1 (bmul a r)) wj g = bmax prec emax (bzero prec emax) (bsub (Babs g) (bmul a r))) by (unfold l1_score; cbn [l1_alpha ieee_ops feq f0 fmax fsub fabs]; rewrite Ew; reflexivity).
    rewrite <- ES in H. assert (Ng : is_nan g = false) by (destruct g; auto; discriminate). destruct (score_fin prec emax Hp Hm m wj g (bmul a r) tol Fw Ft0 Ng Ft H) as [_ Fs].
    pose proof (score_err prec emax Hp Hm m wj g (bmul a r) Fw Fg Ft0 P0 Fs) as E1. unfold r_l1_score in E1. rewrite Z in E1. rewrite (proj2 (Reqb_spec 0 0) eq_refl) in E1.
    assert (Ns : is_nan (l1_score o (L1 (bmul a r)) wj g) = false) by (unfold SpecRound.finite in Fs; destruct (l1_score o (L1 (bmul a r)) wj g); auto; discriminate).
    specialize (H Ns). rewrite key_le, (key_fin prec emax _ Fs), (key_fin prec emax _ Ft) in H. cbn [xle] in H. apply Rleb_spec in H.
    set (sv := B2R (l1_score o (L1 (bmul a r)) wj g)) in *. set (q := Rmax 0 (Rabs (B2R g) - B2R (bmul a r))) in *.
    assert (Q1 : (1 - u) * q <= B2R tol) by (apply Rabs_le_inv in E1; lra).
    unfold r_l1l2_score. rewrite Z, (proj2 (Reqb_spec 0 0) eq_refl).
    assert (Q2 : Rmax 0 (Rabs G - B2R a * B2R r) <= q + (e + ps (B2R a) (B2R r) 0)).
    { rewrite Rabs_minus_sym in HG. pose proof (abs_le_near _ _ _ HG). apply Rabs_le_inv in D0. rewrite Z in PP. apply Rmax_lub; unfold q; [pose proof (Rmax_l 0 (Rabs (B2R g) - B2R (bmul a r))); lra|pose proof (Rmax_r 0 (Rabs (B2R g) - B2R (bmul a r))); lra]. }
    assert (Q3 : (1 - u) * Rmax 0 (Rabs G - B2R a * B2R r) <= (1 - u) * (q + (e + ps (B2R a) (B2R r) 0))) by (apply Rmult_le_compat_l; lra). rewrite Z in PP. nra.
  - pose proof (bne0 wj Fw Ew) as Nw. destruct (thr1 wj Fw Nw) as [NT DT]. set (C := badd (bmul (sgn wj) r) (bmul (bsub bone r) wj)) in *. set (t := bmul a C) in *.
    assert (TOP : forall x : bf, x = B754_infinity false -> Bleb x tol = true -> False). { intros x -> Q. destruct tol as [s|s| |s mm e0 b]; try discriminate Ft; destruct s; discriminate Q. }
    assert (FT : finite t). { destruct t as [s|s| |s mm e0 b] eqn:Et; try reflexivity; [|discriminate NT]. exfalso.
      assert (E : Babs (bsub (Bopp g) (B754_infinity s)) = B754_infinity false) by (destruct g as [sg|sg| |sg mg eg bg]; try discriminate Fg; destruct sg, s; reflexivity).
      rewrite E in H. exact (TOP _ eq_refl (H eq_refl)). }
    specialize (DT FT). assert (Fo : finite (Bopp g)) by (unfold SpecRound.finite; rewrite is_finite_Bopp; exact Fg). pose proof (sub_num prec emax Hp Hm _ _ Fo FT) as NS.
    assert (FS : finite (bsub (Bopp g) t)). { destruct (bsub (Bopp g) t) as [s|s| |s mm e0 b]; try reflexivity; [|discriminate NS]. exfalso. exact (TOP _ eq_refl (H eq_refl)). }
    assert (NA : is_nan (Babs (bsub (Bopp g) t)) = false) by (destruct (bsub (Bopp g) t); auto; discriminate). specialize (H NA).
    assert (FB : finite (Babs (bsub (Bopp g) t))) by (unfold SpecRound.finite; rewrite is_finite_Babs; exact FS).
    rewrite key_le, (key_fin prec emax _ FB), (key_fin prec emax _ Ft) in H. cbn [xle] in H. apply Rleb_spec in H. rewrite B2R_Babs in H. destruct (sub_fin prec emax Hp Hm _ _ FS) as (_ & _ & E1). rewrite E1, B2R_Bopp in H.
    pose proof (fl_plus_err prec emax Hp (- B2R g) (- B2R t)) as D1. assert (D1' : Rabs (fl (- B2R g - B2R t) - (- B2R g - B2R t)) <= u * Rabs (- B2R g - B2R t)) by (apply D1; apply generic_format_opp, fmt_val). clear D1.
    set (z := - B2R g - B2R t) in *. rewrite Rabs_minus_sym in D1'. pose proof (abs_le_near _ _ _ D1') as D2.
    assert (Q1 : (1 - u) * Rabs z <= B2R tol) by lra. unfold r_l1l2_score. destruct (Reqb (B2R wj) 0) eqn:R0; [apply Reqb_spec in R0; contradiction|].
    set (th := B2R a * (rsign (B2R wj) * B2R r + (1 - B2R r) * B2R wj)) in *.
    assert (Q2 : Rabs (- G - th) <= Rabs z + (e + ps (B2R a) (B2R r) (B2R wj))).
    { replace (- G - th) with (z + ((B2R g - G) + (B2R t - th))) by (unfold z; ring). eapply Rle_trans; [apply Rabs_triang|]. apply Rplus_le_compat_l. eapply Rle_trans; [apply Rabs_triang|]. lra. }
    assert (Q3 : (1 - u) * Rabs (- G - th) <= (1 - u) * (Rabs z + (e + ps (B2R a) (B2R r) (B2R wj)))) by (apply Rmult_le_compat_l; lra). nra.
Qed.
End I.
