(** Double-precision instances of the hypotheses of the coordinate-step and extrapolation theorems. *)
From Coq Require Import List ZArith Bool Arith Lia Reals Lra.
From Flocq Require Import Core BinarySingleNaN.
From Verif Require Import Ops Arr IEEE SpecPen SpecRound SpecSolve SpecDatafit PBase PFloat PRoundPen PRoundEx PRunsEx PNullEx2 MUtils MDatasets MDatafits MPenalties MCd.
Import ListNotations.
Open Scope R_scope.

Definition ta2 : f64 := fmul ops64 (tenth 1) (tenth 1).
Lemma ex_ta2 : finite 53 1024 ta2 /\ 0 <= B2R ta2.
Proof.
  split; [vm_compute; reflexivity|]. rewrite b2r_sf. replace (B2SF ta2) with (SpecFloat.S754_finite false 5764607523034236 (-59)) by (vm_compute; reflexivity).
  unfold SF2R, F2R. cbn [Fnum Fexp cond_Zopp]. apply Rmult_le_pos; [apply IZR_le; lia|apply bpow_ge_0].
Qed.
Definition okstep : bool :=
  match df_initialize (quad_dense ops64) (Quad [] []) (Dataset tX ty) with
  | Ret d => match cd_step ops64 (dense_dm ops64) (quad_dense ops64) (l1_penalty ops64) (Dataset tX ty) d (L1 ta2) (tw, tXw) 0, df_gradient_j (quad_dense ops64) d (Dataset tX ty) tXw 0, nth_error (df_step_size (quad_dense ops64) d) 0 with
             | Ret (w', Xw'), Ret g, Some l => match nth_error w' 0 with Some new => nz new && fin l && fin (fsub ops64 (tenth 5) (fdiv ops64 g l)) && fin (fmul ops64 ta2 (fdiv ops64 (f1 ops64) l)) && negb (feq ops64 new (tenth 5)) | None => false end
             | _, _, _ => false end
  | _ => false end.
Lemma okstep_true : okstep = true. Proof. vm_compute. reflexivity. Qed.
Lemma tenth7 : 1 / 2 <= B2R (tenth 7).
Proof.
  rewrite b2r_sf. replace (B2SF (tenth 7)) with (SpecFloat.S754_finite false 6305039478318694 (-53)) by (vm_compute; reflexivity).
  unfold SF2R, F2R. cbn [Fnum Fexp cond_Zopp]. change (-53)%Z with (- (53))%Z. rewrite bpow_opp. change (bpow radix2 53) with 9007199254740992.
  apply (Rmult_le_reg_r 9007199254740992); [lra|]. rewrite Rmult_assoc, Rinv_l by lra. lra.
Qed.
Lemma small_u : 0 < urd 53 <= 1 / 1024.
Proof. unfold urd. split; [apply bpow_gt_0|]. replace (1 / 1024) with (bpow radix2 (-10)) by (simpl; lra). apply bpow_le. lia. Qed.
Lemma small_eta : 0 < tiny 53 1024 <= 1 / 1024.
Proof. unfold tiny. split; [apply bpow_gt_0|]. replace (1 / 1024) with (bpow radix2 (-10)) by (simpl; lra). apply bpow_le. lia. Qed.
Lemma ex_len : let L := dotp (colR 53 1024 tX 0) (colR 53 1024 tX 0) / INR 3 in
  0 < L /\ rel (urd 53) 4 * L + 2 * (1 + urd 53) ^ 4 * tiny 53 1024 <= L / 2.
Proof.
  intros L. assert (HL : 1 / 12 <= L).
  { unfold L. change (colR 53 1024 tX 0) with [B2R (tenth 1); B2R (tenth 3); B2R (tenth 7)]. cbn [dotp]. replace (INR 3) with 3 by (simpl; ring). pose proof tenth7. set (a := B2R (tenth 1)). set (b := B2R (tenth 3)). set (c := B2R (tenth 7)) in *. nra. }
  split; [lra|]. unfold rel. pose proof small_u as U. pose proof small_eta as E. set (u := urd 53) in *. set (e := tiny 53 1024) in *.
  assert (P1 : 1 <= (1 + u) ^ 4) by (apply pow_R1_Rle; lra). assert (P2 : (1 + u) ^ 4 <= (1 + 1 / 1024) ^ 4) by (apply pow_incr; lra). assert (P3 : (1 + 1 / 1024) ^ 4 <= 101 / 100) by (simpl; lra). set (W := (1 + u) ^ 4) in *.
  assert ((W - 1) * L <= 1 / 100 * L) by (apply Rmult_le_compat_r; lra). assert (W * e <= 101 / 100 * (1 / 1024)) by (apply Rmult_le_compat; lra). lra.
Qed.
Lemma ex_step : exists d w' Xw' new g l, df_initialize (quad_dense ops64) (Quad [] []) (Dataset tX ty) = Ret d /\
  cd_step ops64 (dense_dm ops64) (quad_dense ops64) (l1_penalty ops64) (Dataset tX ty) d (L1 ta2) (tw, tXw) 0 = Ret (w', Xw') /\
  nth_error tw 0 = Some (tenth 5) /\ nth_error w' 0 = Some new /\ nth_error (df_step_size (quad_dense ops64) d) 0 = Some l /\ finite 53 1024 l /\
  df_gradient_j (quad_dense ops64) d (Dataset tX ty) tXw 0 = Ret g /\ finite 53 1024 (fsub ops64 (tenth 5) (fdiv ops64 g l)) /\ finite 53 1024 (fmul ops64 ta2 (fdiv ops64 (f1 ops64) l)) /\
  feq ops64 new (f0 ops64) = false /\ feq ops64 new (tenth 5) = false.
Proof.
  pose proof okstep_true as H. unfold okstep in H. destruct (df_initialize _ _ _) as [d|]; [|discriminate]. destruct (cd_step _ _ _ _ _ _ _ _ _) as [[w' Xw']|] eqn:E1; [|discriminate].
  destruct (df_gradient_j _ _ _ _ _) as [g|] eqn:E2; [|discriminate]. destruct (nth_error (df_step_size _ _) 0) as [l|] eqn:E3; [|discriminate]. destruct (nth_error w' 0) as [new|] eqn:E4; [|discriminate].
  apply andb_true_iff in H as [H H5]. apply andb_true_iff in H as [H H4]. apply andb_true_iff in H as [H H3]. apply andb_true_iff in H as [H1 H2]. apply nz_fin in H1 as [A1 B1]. apply negb_true_iff in H5.
  exists d, w', Xw', new, g, l. repeat (split; auto).
Qed.

(** an extrapolated point that is accepted *)
Definition aw : list f64 := map tenth [30; 1]%Z.
Definition aXw : list f64 := map (fun r => fadd ops64 (fmul ops64 (nth 0 r (f0 ops64)) (tenth 30)) (fmul ops64 (nth 1 r (f0 ops64)) (tenth 1))) (mrows tX).
Definition aLK : mat f64 := Mat 3 2 (map (map tenth) [[1; 4]; [0; 3]; [0; 0]]%Z).
Definition okacc : bool :=
  match df_initialize (quad_dense ops64) (Quad [] []) (Dataset tX ty) with
  | Ret d => match anderson_accel ops64 (dense_dm ops64) (quad_dense ops64) (l1_penalty ops64) (Dataset tX ty) d (L1 ta2) aLK aw aXw [0; 1]%nat 2 2 false with
             | Ret (w', Xw', LK') => match quad_value ops64 d (Dataset tX ty) aXw, quad_value ops64 d (Dataset tX ty) Xw' with
                 | Ret v, Ret v' => fin (fadd ops64 v (pen_value (l1_penalty ops64) (L1 ta2) aw)) && fin (fadd ops64 v' (pen_value (l1_penalty ops64) (L1 ta2) w')) && (length w' =? 2)%nat && negb (feq ops64 (nth 0 w' (f0 ops64)) (nth 0 aw (f0 ops64)))
                 | _, _ => false end
             | _ => false end
  | _ => false end.
Lemma okacc_true : okacc = true. Proof. vm_compute. reflexivity. Qed.
Lemma ex_acc : exists d w' Xw' LK' v v', anderson_accel ops64 (dense_dm ops64) (quad_dense ops64) (l1_penalty ops64) (Dataset tX ty) d (L1 ta2) aLK aw aXw [0; 1]%nat 2 2 false = Ret (w', Xw', LK') /\
  quad_value ops64 d (Dataset tX ty) aXw = Ret v /\ quad_value ops64 d (Dataset tX ty) Xw' = Ret v' /\
  finite 53 1024 (fadd ops64 v (pen_value (l1_penalty ops64) (L1 ta2) aw)) /\ finite 53 1024 (fadd ops64 v' (pen_value (l1_penalty ops64) (L1 ta2) w')) /\ length w' = length aw /\ feq ops64 (nth 0 w' (f0 ops64)) (nth 0 aw (f0 ops64)) = false.
Proof.
  pose proof okacc_true as H. unfold okacc in H. destruct (df_initialize _ _ _) as [d|]; [|discriminate]. destruct (anderson_accel _ _ _ _ _ _ _ _ _ _ _ _ _ _) as [[[w' Xw'] LK']|] eqn:E1; [|discriminate].
  destruct (quad_value ops64 d _ aXw) as [v|] eqn:E2; [|discriminate]. destruct (quad_value ops64 d _ Xw') as [v'|] eqn:E3; [|discriminate].
  apply andb_true_iff in H as [H H4]. apply andb_true_iff in H as [H H3]. apply andb_true_iff in H as [H1 H2]. apply negb_true_iff in H4. apply Nat.eqb_eq in H3.
  exists d, w', Xw', LK', v, v'. repeat (split; auto).
Qed.
