(** One coordinate update and one extrapolation in floating point. *)
From Coq Require Import List ZArith Bool Arith Lia Reals Lra.
From Flocq Require Import Core BinarySingleNaN.
From Verif Require Import Ops Arr IEEE SpecPen SpecRound SpecSolve PBase PLaws PFloat PRoundFit PRoundTop MUtils MDatasets MDatafits MPenalties MCd PNull PNanCol.
Import ListNotations.
Open Scope R_scope.

(** *** exact coordinate minimisation *)
Lemma loss_shift y : forall xw x c, length xw = length y -> length x = length y ->
  dotp (vminus y (shift xw c x)) (vminus y (shift xw c x)) = dotp (vminus y xw) (vminus y xw) + 2 * c * (dotp x xw - dotp x y) + c * c * dotp x x.
Proof.
  induction y as [|a y IH]; intros [|b xw] [|e x] c L1 L2; try discriminate; simpl; [ring|]. rewrite IH by (simpl in *; lia). ring.
Qed.
Lemma coord_expand y xw x a old z : (0 < length y)%nat -> length xw = length y -> length x = length y ->
  let n := INR (length y) in let G := (dotp x xw - dotp x y) / n in let L := dotp x x / n in
  coord_obj y xw x a old z = sq_loss y xw + (z - old) * G + L / 2 * (z - old) ^ 2 + a * Rabs z.
Proof.
  intros P L1 L2 n G L. unfold coord_obj, sq_loss. rewrite loss_shift by auto. unfold G, L, n. apply lt_INR in P. change (INR 0) with 0 in P. field. lra.
Qed.
Lemma coord_min y xw x a old : (0 < length y)%nat -> length xw = length y -> length x = length y -> 0 <= a ->
  let n := INR (length y) in let G := (dotp x xw - dotp x y) / n in let L := dotp x x / n in 0 < L ->
  strong_min L (coord_obj y xw x a old) (st (old - G / L) (a / L)).
Proof.
  intros P L1 L2 Ha n G L HL z. set (s := st (old - G / L) (a / L)). rewrite (coord_expand y xw x a old s P L1 L2), (coord_expand y xw x a old z P L1 L2). fold n G L.
  assert (Ht : 0 <= a / L) by (apply Rmult_le_pos; [exact Ha|left; apply Rinv_0_lt_compat; exact HL]).
  pose proof (st_min (old - G / L) (a / L) Ht z) as M. fold s in M. unfold prox_obj, abs_pen in M.
  assert (ID : forall v, (v - old) * G + L / 2 * (v - old) ^ 2 + a * Rabs v = L * ((v - (old - G / L)) ^ 2 / 2 + a / L * Rabs v) - G ^ 2 / (2 * L)) by (intros v; field; lra).
  pose proof (ID s) as I1. pose proof (ID z) as I2. apply Rmult_le_compat_l with (r := L) in M; [|lra]. nra.
Qed.
(** a nearby point is nearly as good *)
Lemma coord_near y xw x a old z e : (0 < length y)%nat -> length xw = length y -> length x = length y -> 0 <= a ->
  let n := INR (length y) in let G := (dotp x xw - dotp x y) / n in let L := dotp x x / n in 0 < L ->
  Rabs (z - st (old - G / L) (a / L)) <= e -> coord_obj y xw x a old z <= coord_obj y xw x a old old + L / 2 * e ^ 2 + 2 * a * e.
Proof.
  intros P L1 L2 Ha n G L HL Hz. pose proof (coord_min y xw x a old P L1 L2 Ha HL) as M. cbv zeta in M. fold n in M. fold G in M. fold L in M. set (s := st (old - G / L) (a / L)) in *. specialize (M old).
  assert (Pe : 0 <= e) by (pose proof (Rabs_pos (z - s)); lra).
  assert (B : coord_obj y xw x a old z <= coord_obj y xw x a old s + L / 2 * e ^ 2 + 2 * a * e).
  { rewrite (coord_expand y xw x a old s P L1 L2), (coord_expand y xw x a old z P L1 L2). fold n G L.
    assert (Q : (z - s) ^ 2 <= e ^ 2) by (rewrite <- (pow2_abs (z - s)); apply pow_incr; split; [apply Rabs_pos|exact Hz]).
    (* stationarity: |G + L (s - old)| <= a *)
    assert (ST : Rabs (G + L * (s - old)) <= a).
    { assert (Ht : 0 <= a / L) by (apply Rmult_le_pos; [exact Ha|left; apply Rinv_0_lt_compat; exact HL]). assert (EG : L * (G / L) = G) by (field; lra). assert (EA : L * (a / L) = a) by (field; lra).
      unfold s, st. destruct (Rlt_dec (a / L) (old - G / L)) as [H1|H1]; [|destruct (Rlt_dec (old - G / L) (- (a / L))) as [H2|H2]].
      - replace (G + L * (old - G / L - a / L - old)) with (- a) by nra. rewrite Rabs_Ropp, Rabs_right by lra. lra.
      - replace (G + L * (old - G / L + a / L - old)) with a by nra. rewrite Rabs_right by lra. lra.
      - apply Rabs_le. nra. }
    assert (TR : Rabs z <= Rabs s + e). { replace z with ((z - s) + s) by ring. eapply Rle_trans; [apply Rabs_triang|]. lra. }
    assert (GZ : (z - s) * (G + L * (s - old)) <= a * e).
    { eapply Rle_trans; [apply Rle_abs|]. rewrite Rabs_mult, Rmult_comm. apply Rmult_le_compat; auto using Rabs_pos. }
    assert (a * Rabs z <= a * (Rabs s + e)) by (apply Rmult_le_compat_l; auto).
    replace ((z - old) * G + L / 2 * (z - old) ^ 2) with ((s - old) * G + L / 2 * (s - old) ^ 2 + (z - s) * (G + L * (s - old)) + L / 2 * (z - s) ^ 2) by field.
    assert (L / 2 * (z - s) ^ 2 <= L / 2 * e ^ 2) by (apply Rmult_le_compat_l; lra).
    replace (sq_loss y xw + (z - old) * G + L / 2 * (z - old) ^ 2 + a * Rabs z) with (sq_loss y xw + ((s - old) * G + L / 2 * (s - old) ^ 2 + (z - s) * (G + L * (s - old)) + L / 2 * (z - s) ^ 2) + a * Rabs z) by field. lra. }
  assert (0 <= L / 2 * (old - s) ^ 2) by (apply Rmult_le_pos; [lra|apply pow2_ge_0]). lra.
Qed.
Lemma st_lip_x x x' t : 0 <= t -> Rabs (st x t - st x' t) <= Rabs (x - x').
Proof.
  intros H. unfold st. pose proof (Rle_abs (x - x')). pose proof (Rle_abs (x' - x)) as Q. rewrite Rabs_minus_sym in Q.
  destruct (Rlt_dec t x), (Rlt_dec t x'), (Rlt_dec x (- t)), (Rlt_dec x' (- t)); try lra; apply Rabs_le; lra.
Qed.

Section I.
Context (prec emax : Z) (Hp : Prec_gt_0 prec) (Hm : Prec_lt_emax prec emax) (m : libm prec emax) (RD : reduces prec emax Hp Hm m).
Local Notation bf := (binary_float prec emax).
Local Notation o := (ieee_ops prec emax Hp Hm m).
Local Notation fl := (fl prec emax).
Local Notation u := (urd prec).
Local Notation eta := (tiny prec emax).
Local Notation val := (val prec emax).
Local Notation finite := (finite prec emax).
Local Notation colR := (colR prec emax).
Local Notation tgtR := (tgtR prec emax).

(** rounded soft thresholding of perturbed data *)
Lemma soft_pert (v t : bf) V T ev et : finite v -> finite t -> 0 <= B2R t -> 0 <= T -> Rabs (B2R v - V) <= ev -> Rabs (B2R t - T) <= et ->
  Rabs (B2R (soft_thresholding o v t) - st V T) <= u * Rabs (st V T) + (1 + u) * (ev + et).
Proof.
  intros Fv Ft Ht HT Hv Hte. destruct (soft_round prec emax Hp Hm m v t Fv Ft Ht) as [F E]. rewrite E. set (z' := st (B2R v) (B2R t)). set (z := st V T).
  assert (Q : Rabs (z' - z) <= ev + et).
  { unfold z', z. pose proof (st_lip_x (B2R v) V (B2R t) Ht) as A. pose proof (st_lip V (B2R t) T Ht HT) as B.
    replace (st (B2R v) (B2R t) - st V T) with ((st (B2R v) (B2R t) - st V (B2R t)) + (st V (B2R t) - st V T)) by ring. eapply Rle_trans; [apply Rabs_triang|]. lra. }
  assert (R1 : Rabs (fl z' - z') <= u * Rabs z').
  { unfold z', st. destruct (Rlt_dec (B2R t) (B2R v)); [|destruct (Rlt_dec (B2R v) (- B2R t))].
    - apply (fl_plus_err prec emax Hp (B2R v) (- B2R t)); [apply fmt_val|apply generic_format_opp, fmt_val].
    - apply fl_plus_err; [exact Hp|apply fmt_val|apply fmt_val].
    - rewrite fl_0, Rminus_0_r, Rabs_R0. lra. }
  pose proof (u_pos prec) as U. pose proof (abs_le_near _ _ _ Q) as N. eapply Rle_trans; [exact (abs_mid _ _ _ _ _ R1 Q)|].
  assert (u * Rabs z' <= u * (Rabs z + (ev + et))) by (apply Rmult_le_compat_l; lra). lra.
Qed.

(** [G], [L]: exact gradient and curvature; [eg], [el]: their errors *)
Lemma step_err (old g l a : bf) G L eg el : finite a -> 0 <= B2R a -> finite l -> 0 < L -> el <= L / 2 -> Rabs (B2R g - G) <= eg -> Rabs (B2R l - L) <= el ->
  finite (fsub o old (fdiv o g l)) -> finite (fmul o a (fdiv o (f1 o) l)) ->
  let z := st (B2R old - G / L) (B2R a / L) in
  let e1 := 2 / L * (eg + Rabs G * (el / L)) in
  let e2 := u * Rabs (G / L) + (1 + u) * e1 + eta in
  let e3 := u * Rabs (B2R old - G / L) + (1 + u) * e2 in
  let e4 := 2 * u / L + 2 * el / (L * L) + eta in
  let e5 := u * (B2R a / L) + (1 + u) * (B2R a * e4) + eta in
  Rabs (B2R (pen_prox (l1_penalty o) (L1 a) (fsub o old (fdiv o g l)) (fdiv o (f1 o) l)) - z) <= u * Rabs z + (1 + u) * (e3 + e5).
Proof.
  intros Fa Ha Fl HL Hel Hg Hl F1 F2 z e1 e2 e3 e4 e5. pose proof (u_pos prec) as U. pose proof (eta_pos prec emax) as Q.
  assert (I : 0 < / L) by (apply Rinv_0_lt_compat; exact HL).
  assert (Pl : L / 2 <= B2R l) by (apply Rabs_le_inv in Hl; lra). assert (Il : / B2R l <= 2 / L). { replace (2 / L) with (/ (L / 2)) by (field; lra). apply Rinv_le_contravar; lra. }
  assert (Il0 : 0 < / B2R l) by (apply Rinv_0_lt_compat; lra). assert (Peg : 0 <= eg) by (pose proof (Rabs_pos (B2R g - G)); lra). assert (Pel : 0 <= el) by (pose proof (Rabs_pos (B2R l - L)); lra).
  cbn [ieee_ops fsub fdiv fmul f1] in F1, F2 |- *. destruct (sub_fin prec emax Hp Hm _ _ F1) as (Fo & Fd & E1). destruct (div_fin prec emax Hp Hm _ _ Fd Fl) as (Fg & Nl & E2).
  destruct (mul_fin prec emax Hp Hm _ _ F2) as (_ & Fs & E3). destruct (div_fin prec emax Hp Hm _ _ Fs Fl) as (_ & _ & E4). unfold bone in E4. rewrite Bone_correct in E4.
  (* quotient *)
  assert (A1 : Rabs (B2R g / B2R l - G / L) <= e1).
  { replace (B2R g / B2R l - G / L) with (/ B2R l * ((B2R g - G) + G * ((L - B2R l) / L))) by (field; lra). rewrite Rabs_mult, (Rabs_right (/ B2R l)) by lra.
    assert (B : Rabs (B2R g - G + G * ((L - B2R l) / L)) <= eg + Rabs G * (el / L)).
    { eapply Rle_trans; [apply Rabs_triang|]. apply Rplus_le_compat; [exact Hg|]. rewrite Rabs_mult. apply Rmult_le_compat_l; [apply Rabs_pos|]. unfold Rdiv. rewrite Rabs_mult, (Rabs_right (/ L)) by lra. apply Rmult_le_compat_r; [lra|]. rewrite Rabs_minus_sym. exact Hl. }
    unfold e1. apply Rmult_le_compat; auto; [lra|apply Rabs_pos]. }
  assert (A2 : Rabs (B2R (bdiv prec emax Hp Hm g l) - G / L) <= e2).
  { rewrite E2. pose proof (fl_err prec emax Hp (B2R g / B2R l)) as B. pose proof (abs_le_near _ _ _ A1) as N. eapply Rle_trans; [exact (abs_mid _ _ _ _ _ B A1)|].
    assert (u * Rabs (B2R g / B2R l) <= u * (Rabs (G / L) + e1)) by (apply Rmult_le_compat_l; lra). unfold e2. lra. }
  set (dq := bdiv prec emax Hp Hm g l) in *.
  assert (A3 : Rabs (B2R (bsub prec emax Hp Hm old dq) - (B2R old - G / L)) <= e3).
  { rewrite E1. pose proof (fl_plus_err prec emax Hp (B2R old) (- B2R dq) (fmt_val prec emax old) (generic_format_opp _ _ _ (fmt_val prec emax dq))) as B. change (B2R old + - B2R dq) with (B2R old - B2R dq) in B.
    assert (N1 : Rabs (B2R old - B2R dq - (B2R old - G / L)) <= e2). { replace (B2R old - B2R dq - (B2R old - G / L)) with (- (B2R dq - G / L)) by ring. rewrite Rabs_Ropp. exact A2. }
    pose proof (abs_le_near _ _ _ N1) as N. eapply Rle_trans; [exact (abs_mid _ _ _ _ _ B N1)|]. assert (u * Rabs (B2R old - B2R dq) <= u * (Rabs (B2R old - G / L) + e2)) by (apply Rmult_le_compat_l; lra). unfold e3. lra. }
  (* threshold *)
  assert (A4 : Rabs (B2R (bdiv prec emax Hp Hm (bone prec emax Hp Hm) l) - 1 / L) <= e4).
  { unfold bone. rewrite E4. pose proof (fl_err prec emax Hp (1 / B2R l)) as B.
    assert (N1 : Rabs (1 / B2R l - 1 / L) <= 2 * el / (L * L)).
    { replace (1 / B2R l - 1 / L) with (/ B2R l * ((L - B2R l) * / L)) by (field; lra). rewrite !Rabs_mult, (Rabs_right (/ B2R l)), (Rabs_right (/ L)) by lra.
      replace (2 * el / (L * L)) with (2 / L * (el * / L)) by (field; lra). apply Rmult_le_compat; [lra|apply Rmult_le_pos; [apply Rabs_pos|lra]|exact Il|]. apply Rmult_le_compat_r; [lra|]. rewrite Rabs_minus_sym. exact Hl. }
    eapply Rle_trans; [exact (abs_mid _ _ _ _ _ B N1)|]. assert (Rabs (1 / B2R l) <= 2 / L) by (unfold Rdiv at 1; rewrite Rmult_1_l, Rabs_right by lra; exact Il).
    assert (u * Rabs (1 / B2R l) <= u * (2 / L)) by (apply Rmult_le_compat_l; lra). unfold e4. replace (2 * u / L) with (u * (2 / L)) by (field; lra). lra. }
  set (sq := bdiv prec emax Hp Hm (bone prec emax Hp Hm) l) in *.
  assert (Psq : 0 <= B2R sq). { unfold sq, bone. rewrite E4. rewrite <- (fl_0 prec emax). apply fl_le; [exact Hp|]. unfold Rdiv. lra. }
  assert (A5 : Rabs (B2R (bmul prec emax Hp Hm a sq) - B2R a / L) <= e5).
  { rewrite E3. pose proof (fl_err prec emax Hp (B2R a * B2R sq)) as B.
    assert (N1 : Rabs (B2R a * B2R sq - B2R a / L) <= B2R a * e4). { replace (B2R a * B2R sq - B2R a / L) with (B2R a * (B2R sq - 1 / L)) by (field; lra). rewrite Rabs_mult, (Rabs_right (B2R a)) by lra. apply Rmult_le_compat_l; auto. }
    pose proof (abs_le_near _ _ _ N1) as N. rewrite (Rabs_right (B2R a / L)) in N by (apply Rle_ge; unfold Rdiv; apply Rmult_le_pos; lra). eapply Rle_trans; [exact (abs_mid _ _ _ _ _ B N1)|].
    assert (u * Rabs (B2R a * B2R sq) <= u * (B2R a / L + B2R a * e4)) by (apply Rmult_le_compat_l; lra). unfold e5. lra. }
  cbn [l1_penalty pen_prox]. unfold l1_prox. cbn [l1_alpha ieee_ops fmul]. apply soft_pert; auto.
  - rewrite E3. rewrite <- (fl_0 prec emax). apply fl_le; [exact Hp|]. apply Rmult_le_pos; auto.
  - unfold Rdiv. apply Rmult_le_pos; lra.
Qed.

Section Dense.
Context (n p : nat) (Hn : (Z.of_nat n <= 2 ^ prec)%Z) (Pn : (0 < n)%nat) (X : mat bf) (t : targets bf) (SX : shaped n p X) (ST : target1_wf n t)
  (d0 d : quadratic bf) (EI : df_initialize (quad_dense o) d0 (Dataset X t) = Ret d) (a : bf) (Fa : finite a) (Ha : 0 <= B2R a).
Lemma len_tgt : length (tgtR t) = n.
Proof. destruct t as [y|Y]; cbn [SpecRound.tgtR]. - unfold SpecRound.val. rewrite map_length. exact ST. - destruct ST as (A & B & C & D). unfold SpecRound.colR. rewrite map_length. congruence. Qed.
Lemma len_col j : length (colR X j) = n.
Proof. destruct SX as (S1 & S2 & S3 & _). unfold SpecRound.colR. rewrite map_length. congruence. Qed.

Lemma cd_step_inv w Xw w' Xw' j old g l : length Xw = n -> cd_step o (dense_dm o) (quad_dense o) (l1_penalty o) (Dataset X t) d (L1 a) (w, Xw) j = Ret (w', Xw') ->
  nth_error w j = Some old -> nth_error (df_step_size (quad_dense o) d) j = Some l -> B2R l <> 0 -> df_gradient_j (quad_dense o) d (Dataset X t) Xw j = Ret g ->
  nth_error w' j = Some (pen_prox (l1_penalty o) (L1 a) (fsub o old (fdiv o g l)) (fdiv o (f1 o) l)).
Proof.
  intros LX H Ew El Nl Eg. unfold cd_step in H. unfold vget in H at 1. rewrite El in H. cbn [bind] in H.
  assert (Z : feq o l (f0 o) = false). { cbn [ieee_ops feq f0]. rewrite key_eq. change (key prec emax (bzero prec emax)) with (XR.Fin 0). destruct l as [s|s| |s mm e b]; [exfalso; apply Nl; reflexivity|destruct s; reflexivity|reflexivity|]. unfold key. cbn [XR.xeq]. destruct (XR.Reqb _ 0) eqn:E; [|reflexivity]. apply XR.Reqb_spec in E. contradiction. }
  rewrite Z in H. unfold vget in H at 1. rewrite Ew in H. cbn [bind] in H. rewrite Eg in H. cbn [bind] in H. set (nw := pen_prox _ _ _ _) in *.
  assert (Hj : (j < length w)%nat) by (apply nth_error_Some; congruence). rewrite vset_ok in H by exact Hj. cbn [bind] in H.
  assert (W : w' = upd w j nw). { destruct (negb _); [destruct (dm_update _ _ _ _ _); [|discriminate]; cbn [bind] in H|]; injection H as <- _; reflexivity. }
  subst w'. rewrite (nth_error_nth' _ (f0 o)) by (rewrite upd_length; exact Hj). rewrite nth_upd, Nat.eqb_refl. apply Nat.ltb_lt in Hj. rewrite Hj. reflexivity.
Qed.
Lemma top_step w Xw w' Xw' j old new g l : length Xw = n -> cd_step o (dense_dm o) (quad_dense o) (l1_penalty o) (Dataset X t) d (L1 a) (w, Xw) j = Ret (w', Xw') ->
  nth_error w j = Some old -> nth_error w' j = Some new -> nth_error (df_step_size (quad_dense o) d) j = Some l -> finite l -> df_gradient_j (quad_dense o) d (Dataset X t) Xw j = Ret g ->
  finite (fsub o old (fdiv o g l)) -> finite (fmul o a (fdiv o (f1 o) l)) ->
  let x := colR X j in let xw := val Xw in let y := tgtR t in
  let G := (dotp x xw - dotp x y) / INR n in let L := dotp x x / INR n in
  let eg := rel u (n + 2) * ((adot x xw + adot x y) / INR n) + 3 * (1 + u) ^ (n + 2) * eta in
  let el := rel u (n + 1) * L + 2 * (1 + u) ^ (n + 1) * eta in
  0 < L -> el <= L / 2 ->
  let e1 := 2 / L * (eg + Rabs G * (el / L)) in
  let e2 := u * Rabs (G / L) + (1 + u) * e1 + eta in
  let e3 := u * Rabs (B2R old - G / L) + (1 + u) * e2 in
  let e4 := 2 * u / L + 2 * el / (L * L) + eta in
  let e5 := u * (B2R a / L) + (1 + u) * (B2R a * e4) + eta in
  exists z, strong_min L (coord_obj y xw x (B2R a) (B2R old)) z /\
    let e := u * Rabs z + (1 + u) * (e3 + e5) in
    Rabs (B2R new - z) <= e /\
    coord_obj y xw x (B2R a) (B2R old) (B2R new) <= coord_obj y xw x (B2R a) (B2R old) (B2R old) + L / 2 * e ^ 2 + 2 * B2R a * e.
Proof using RD Hn Pn SX ST EI Fa Ha.
  intros LX H Ew Ew' El Fl Eg F1 F2 x xw y G L eg el HL Hel e1 e2 e3 e4 e5.
  assert (Fd : finite (fdiv o g l)) by (cbn [ieee_ops fsub fdiv] in F1 |- *; exact (proj1 (proj2 (sub_fin prec emax Hp Hm _ _ F1)))). assert (Nl : B2R l <> 0) by (cbn [ieee_ops fdiv] in Fd; exact (proj1 (proj2 (div_fin prec emax Hp Hm _ _ Fd Fl)))).
  assert (Fg : finite g) by (cbn [ieee_ops fdiv] in Fd; exact (proj1 (div_fin prec emax Hp Hm _ _ Fd Fl))).
  pose proof (cd_step_inv w Xw w' Xw' j old g l LX H Ew El Nl Eg) as EN. assert (new = pen_prox (l1_penalty o) (L1 a) (fsub o old (fdiv o g l)) (fdiv o (f1 o) l)) by congruence. subst new.
  pose proof (top_grad prec emax Hp Hm m RD n p X t d0 d Xw j g Hn SX ST EI Eg Fg) as A. pose proof (top_lip prec emax Hp Hm m RD n p X t d0 d j l Hn SX ST EI El Fl) as B.
  pose proof (step_err old g l a G L eg el Fa Ha Fl HL Hel A B F1 F2) as S. cbv zeta in S. fold e1 in S. fold e2 in S. fold e3 in S. fold e4 in S. fold e5 in S.
  assert (Ly : length y = n) by apply len_tgt. assert (Lw : length xw = n) by (unfold xw, SpecRound.val; rewrite map_length; exact LX). assert (Lx : length x = n) by apply len_col.
  exists (st (B2R old - G / L) (B2R a / L)). assert (P' : (0 < length y)%nat) by lia.
  pose proof (coord_min y xw x (B2R a) (B2R old) P' (eq_trans Lw (eq_sym Ly)) (eq_trans Lx (eq_sym Ly)) Ha) as CM. cbv zeta in CM. rewrite Ly in CM. fold G L in CM.
  split; [exact (CM HL)|]. split; [exact S|].
  pose proof (coord_near y xw x (B2R a) (B2R old)) as CN. specialize (CN (B2R (pen_prox (l1_penalty o) (L1 a) (fsub o old (fdiv o g l)) (fdiv o (f1 o) l))) (u * Rabs (st (B2R old - G / L) (B2R a / L)) + (1 + u) * (e3 + e5)) P' (eq_trans Lw (eq_sym Ly)) (eq_trans Lx (eq_sym Ly)) Ha). cbv zeta in CN. rewrite Ly in CN. fold G L in CN. exact (CN HL S).
Qed.
End Dense.

(** *** objective values *)
Lemma rsum_pos l : 0 <= rsum (map Rabs l).
Proof. unfold rsum. induction l as [|x l IH]; cbn [map fold_right]; [lra|]. pose proof (Rabs_pos x). lra. Qed.
Lemma sq_loss_pos y xw : 0 <= sq_loss y xw.
Proof.
  unfold sq_loss, Rdiv. apply Rmult_le_pos; [apply dotp_self_pos|]. destruct (length y) as [|k]; [simpl; rewrite Rmult_0_r, Rinv_0; lra|].
  left. apply Rinv_0_lt_compat. assert (0 < INR (S k)) by (apply lt_0_INR; lia). lra.
Qed.
Lemma obj_err {DM} n t (X : DM) d a w Xw v : (Z.of_nat (2 * n) <= 2 ^ prec)%Z -> target1_wf n t -> 0 <= B2R a -> length Xw = n -> quad_value o d (Dataset X t) Xw = Ret v -> finite (fadd o v (pen_value (l1_penalty o) (L1 a) w)) ->
  let O := lasso_obj (tgtR t) (val Xw) (B2R a) (val w) in
  Rabs (B2R (fadd o v (pen_value (l1_penalty o) (L1 a) w)) - O) <= rel u (n + length w + 4) * O + 3 * (1 + u) ^ (n + 2) * eta.
Proof using RD.
  intros Hn ST Ha LX EV F O. cbn [ieee_ops fadd] in F |- *. destruct (add_fin prec emax Hp Hm _ _ F) as (Fv & Fp & E). rewrite E.
  pose proof (top_value prec emax Hp Hm m RD n t X d Xw v Hn ST LX EV Fv) as A. cbv zeta in A. cbn [l1_penalty pen_value] in *. pose proof (l1_value_err prec emax Hp Hm m RD a w _ eq_refl Fp) as B. set (pv := l1_value o (L1 a) w) in *.
  pose proof (u_pos prec) as U. pose proof (eta_pos prec emax) as Q.
  assert (Ly : length (tgtR t) = n) by (destruct t as [y|Y]; cbn [SpecRound.tgtR]; [unfold SpecRound.val; rewrite map_length; exact ST|destruct ST as (S1 & S2 & S3 & S4); unfold SpecRound.colR; rewrite map_length; congruence]).
  assert (EL : dotp (vminus (tgtR t) (val Xw)) (vminus (tgtR t) (val Xw)) / (2 * INR n) = sq_loss (tgtR t) (val Xw)) by (unfold sq_loss; rewrite Ly; reflexivity). rewrite EL in A.
  set (V := sq_loss (tgtR t) (val Xw)) in *. set (P := B2R a * rsum (map Rabs (val w))) in *. assert (PV : 0 <= V) by apply sq_loss_pos. assert (PP : 0 <= P) by (apply Rmult_le_pos; [exact Ha|apply rsum_pos]).
  rewrite (Rabs_right P) in B by lra. assert (EO : O = V + P) by reflexivity. rewrite EO.
  pose proof (fl_plus_err prec emax Hp (B2R v) (B2R pv) (fmt_val prec emax v) (fmt_val prec emax pv)) as C.
  set (k := (n + length w + 3)%nat). assert (M1 : rel u (n + 3) <= rel u k) by (apply rel_mono; unfold k; lia). assert (M2 : rel u (length w) <= rel u k) by (apply rel_mono; unfold k; lia).
  set (ee := 2 * (1 + u) ^ (n + 1) * eta + eta).
  assert (D : Rabs (B2R v + B2R pv - (V + P)) <= rel u k * (V + P) + ee).
  { replace (B2R v + B2R pv - (V + P)) with ((B2R v - V) + (B2R pv - P)) by ring. eapply Rle_trans; [apply Rabs_triang|].
    assert (rel u (n + 3) * V <= rel u k * V) by (apply Rmult_le_compat_r; auto). assert (rel u (length w) * P <= rel u k * P) by (apply Rmult_le_compat_r; auto). unfold ee. lra. }
  pose proof (abs_le_near _ _ _ D) as N. rewrite (Rabs_right (V + P)) in N by lra. eapply Rle_trans; [exact (abs_mid _ _ _ _ _ C D)|].
  assert (u * Rabs (B2R v + B2R pv) <= u * (V + P + (rel u k * (V + P) + ee))) by (apply Rmult_le_compat_l; lra).
  replace (n + length w + 4)%nat with (S k) by (unfold k; lia). rewrite rel_S.
  assert (EE : (1 + u) * ee <= 3 * (1 + u) ^ (n + 2) * eta).
  { unfold ee. replace ((1 + u) ^ (n + 2)) with ((1 + u) * (1 + u) ^ (n + 1)) by (rewrite !pow_add; ring). assert (1 <= (1 + u) ^ (n + 1)) by (apply pow_R1_Rle; lra). set (W := (1 + u) ^ (n + 1)) in *. assert (0 <= (1 + u) * (W - 1) * eta) by (apply Rmult_le_pos; [apply Rmult_le_pos; lra|lra]). nra. }
  nra.
Qed.
Lemma scatter_length nf pt ws r : scatter o nf pt ws = Ret r -> length r = nf.
Proof.
  unfold scatter. intros H. refine (foldM_inv (fun v => length v = nf) _ _ _ _ _ _ H).
  - unfold vzeros. apply repeat_length.
  - intros v b v' _ E K. unfold vset in K. destruct (_ <? _)%nat; [|discriminate]. injection K as <-. rewrite upd_length. exact E.
Qed.
(** an extrapolation step, whatever the design and the stored iterates *)
Lemma accel_err {DM} (dm : DesignMatrix bf DM) (df : Datafit bf DM (quadratic bf)) n t (X : DM) d a K ws ep vb LK LK' w Xw w' Xw' v v' :
  (forall d0 ds xw, df_value df d0 ds xw = quad_value o d0 ds xw) -> (forall ws0 w0 Xa, dm_extrap dm X ws0 w0 n = Ret Xa -> length Xa = n) -> length Xw = n -> (Z.of_nat (2 * n) <= 2 ^ prec)%Z -> target1_wf n t -> 0 <= B2R a -> dm_n_features dm X = Ret (length w) ->
  anderson_accel o dm df (l1_penalty o) (Dataset X t) d (L1 a) LK w Xw ws ep K vb = Ret (w', Xw', LK') ->
  quad_value o d (Dataset X t) Xw = Ret v -> quad_value o d (Dataset X t) Xw' = Ret v' ->
  finite (fadd o v (pen_value (l1_penalty o) (L1 a) w)) -> finite (fadd o v' (pen_value (l1_penalty o) (L1 a) w')) ->
  let r := rel u (n + length w + 4) in
  (1 - r) * lasso_obj (tgtR t) (val Xw') (B2R a) (val w') <= (1 + r) * lasso_obj (tgtR t) (val Xw) (B2R a) (val w) + 6 * (1 + u) ^ (n + 2) * eta.
Proof using RD.
  intros HV HE LX Hn ST Ha Lf H Ev Ev' F F' r. assert (NS : n_samples t = n) by (destruct t; [exact ST|exact (proj1 ST)]).
  assert (CASE : length w' = length w /\ length Xw' = n /\ ((w' = w /\ Xw' = Xw) \/ flt o (fadd o v' (pen_value (l1_penalty o) (L1 a) w')) (fadd o v (pen_value (l1_penalty o) (L1 a) w)) = true)).
  { unfold anderson_accel in H. cbn [design_matrix] in H. rewrite Lf in H. cbn [bind] in H. destruct (store_iterate _ _ _ _) as [L1'|]; [|discriminate]. cbn [bind] in H.
    destruct (_ =? K)%nat; [|injection H as <- <- _; auto]. destruct (anderson_point _ _ _ _) as [[pt|]|]; [| |discriminate]; cbn [bind] in H; [|injection H as <- <- _; auto].
    destruct (scatter _ _ _ _) as [wa|] eqn:Es; [|discriminate]. cbn [bind] in H. cbn [dtargets] in H. rewrite NS in H. destruct (dm_extrap _ _ _ _ _) as [Xa|] eqn:EX; [|discriminate]. cbn [bind] in H. rewrite !HV in H. cbn [design_matrix] in H. rewrite Ev in H. cbn [bind] in H.
    destruct (quad_value o d (Dataset X t) Xa) as [va|] eqn:Ea; [|discriminate]. cbn [bind] in H. destruct (flt o _ _) eqn:EF; [|injection H as <- <- _; auto]. injection H as <- <- _. split; [exact (scatter_length _ _ _ _ Es)|]. split; [exact (HE _ _ _ EX)|]. right. rewrite Ev' in Ea. injection Ea as ->. exact EF. }
  destruct CASE as [Lw [LX' CASE]]. pose proof (obj_err n t X d a w Xw v Hn ST Ha LX Ev F) as A. pose proof (obj_err n t X d a w' Xw' v' Hn ST Ha LX' Ev' F') as B. cbv zeta in A, B. rewrite Lw in B. fold r in A, B.
  set (O := lasso_obj (tgtR t) (val Xw) (B2R a) (val w)) in *. set (O' := lasso_obj (tgtR t) (val Xw') (B2R a) (val w')) in *.
  assert (PO : 0 <= O). { unfold O, lasso_obj. pose proof (sq_loss_pos (tgtR t) (val Xw)). assert (0 <= B2R a * rsum (map Rabs (val w))) by (apply Rmult_le_pos; [exact Ha|apply rsum_pos]). lra. }
  assert (Pr : 0 <= r) by apply rel_pos. pose proof (u_pos prec) as U. pose proof (eta_pos prec emax) as Q. assert (PE : 0 <= 6 * (1 + u) ^ (n + 2) * eta) by (apply Rmult_le_pos; [apply Rmult_le_pos; [lra|apply pow_le; lra]|lra]).
  destruct CASE as [[Ew EX]|LT].
  - assert (O' = O) by (unfold O', O; rewrite Ew, EX; reflexivity). rewrite H0. nra.
  - cbn [ieee_ops flt] in LT. apply (lt_fin prec emax _ _ F' F) in LT. apply Rabs_le_inv in A, B. cbn [ieee_ops fadd] in A, B, LT. lra.
Qed.
Lemma accel_err_dense n t X d a K ws ep vb LK LK' w Xw w' Xw' v v' : (Z.of_nat (2 * n) <= 2 ^ prec)%Z -> shaped n (length w) X -> target1_wf n t -> 0 <= B2R a -> length Xw = n ->
  anderson_accel o (dense_dm o) (quad_dense o) (l1_penalty o) (Dataset X t) d (L1 a) LK w Xw ws ep K vb = Ret (w', Xw', LK') ->
  quad_value o d (Dataset X t) Xw = Ret v -> quad_value o d (Dataset X t) Xw' = Ret v' ->
  finite (fadd o v (pen_value (l1_penalty o) (L1 a) w)) -> finite (fadd o v' (pen_value (l1_penalty o) (L1 a) w')) ->
  let r := rel u (n + length w + 4) in
  (1 - r) * lasso_obj (tgtR t) (val Xw') (B2R a) (val w') <= (1 + r) * lasso_obj (tgtR t) (val Xw) (B2R a) (val w) + 6 * (1 + u) ^ (n + 2) * eta.
Proof using RD.
  intros Hn HX ST Ha LX. apply (accel_err (dense_dm o) (quad_dense o) n t X d a K ws ep vb LK LK' w Xw w' Xw' v v'); auto; [intros ws0 w0 Xa E; cbn [dense_dm dm_extrap] in E; unfold dense_extrap in E; apply PNull.mapM_len in E; destruct HX as (H1 & _ & H3 & _); congruence|destruct HX as (_ & H2 & _); cbn [dense_dm dm_n_features]; rewrite H2; reflexivity].
Qed.
Lemma accel_err_sparse n t X d a K ws ep vb LK LK' w Xw w' Xw' v v' : (Z.of_nat (2 * n) <= 2 ^ prec)%Z -> dm_n_features (sparse_dm o) X = Ret (length w) -> target1_wf n t -> 0 <= B2R a -> length Xw = n ->
  anderson_accel o (sparse_dm o) (quad_sparse o) (l1_penalty o) (Dataset X t) d (L1 a) LK w Xw ws ep K vb = Ret (w', Xw', LK') ->
  quad_value o d (Dataset X t) Xw = Ret v -> quad_value o d (Dataset X t) Xw' = Ret v' ->
  finite (fadd o v (pen_value (l1_penalty o) (L1 a) w)) -> finite (fadd o v' (pen_value (l1_penalty o) (L1 a) w')) ->
  let r := rel u (n + length w + 4) in
  (1 - r) * lasso_obj (tgtR t) (val Xw') (B2R a) (val w') <= (1 + r) * lasso_obj (tgtR t) (val Xw) (B2R a) (val w) + 6 * (1 + u) ^ (n + 2) * eta.
Proof using RD.
  intros Hn HX ST Ha LX. apply (accel_err (sparse_dm o) (quad_sparse o) n t X d a K ws ep vb LK LK' w Xw w' Xw' v v'); auto. intros ws0 w0 Xa E; exact (PNanCol.sparse_ext_len o X ws0 w0 n Xa E).
Qed.
End I.
