(** Double-precision elastic-net runs that stop before their iteration limit. *)
From Coq Require Import List ZArith Bool Arith Lia Reals Lra.
From Flocq Require Import Core BinarySingleNaN.
From Verif Require Import Ops Arr IEEE RSum SpecRound SpecData SpecSolve SpecTrace SpecDrift PFloat PRoundPen PRoundEx PRunsEx PNullEx2 MUtils MDatasets MDatafits MPenalties MCd MHyper MEstimators PTraceFit PTraceEx.
Import ListNotations.

(** alpha 1, l1 ratio 1/2, five rounds of two epochs, tolerance 1/10 *)
Definition half64 : f64 := flit ops64 1 2.
Definition epr : params f64 := Params (f1 ops64) half64 5 2 10 (tenth 1) 2 false false.
Definition eq64 : l1l2 f64 := L1PlusL2 (f1 ops64) half64.

Section G.
Context {DM : Type} (dm : DesignMatrix f64 DM) (df : Datafit f64 DM (quadratic f64)) (X : DM).
Definition test_en (d : quadratic f64) (b : bool) (s : list f64 * list f64) : bool :=
  match opt_cond_violation df (l1l2_penalty ops64) (Dataset X ry) (fst s) (snd s) (seq 0 2) d eq64 with Ret (_, worst) => eqb (fle ops64 worst (tenth 1)) b | _ => false end.
Lemma test_en_ok d b s : test_en d b s = true -> tested ops64 df (l1l2_penalty ops64) (Dataset X ry) d eq64 2 (tenth 1) b s.
Proof. unfold test_en, tested. destruct (opt_cond_violation _ _ _ _ _ _ _ _) as [[sc w]|]; [|discriminate]. intros H. apply eqb_prop in H. exists sc, w. auto. Qed.
Definition okrun_en : bool :=
  match df_initialize df (quadratic_new ops64) (Dataset X ry), solve ops64 srt64 dm df (l1l2_penalty ops64) csolver (Dataset X ry) (quadratic_new ops64) eq64 with
  | Ret d, Ret w => match foldM (cd_step ops64 dm df (l1l2_penalty ops64) (Dataset X ry) d eq64) cfeats (zero_state ops64 2 3) with
      | Ret s => same (fst s) w && forallb fin w && forallb fin (snd s) && nz (nth 0 w (f0 ops64)) && test_en d false (zero_state ops64 2 3) && test_en d true s
          && forallb (fun j => match df_gradient_j df d (Dataset X ry) (snd s) j with Ret g => is_finite g | _ => false end) (seq 0 2)
      | _ => false end
  | _, _ => false end.
Definition run_example_en : Prop := exists d w Xw, df_initialize df (quadratic_new ops64) (Dataset X ry) = Ret d /\
  solve ops64 srt64 dm df (l1l2_penalty ops64) csolver (Dataset X ry) (quadratic_new ops64) eq64 = Ret w /\ nonzero ops64 w 0 /\ (forall x, In x w -> finite 53 1024 x) /\ (forall x, In x Xw -> finite 53 1024 x) /\
  foldM (cd_step ops64 dm df (l1l2_penalty ops64) (Dataset X ry) d eq64) cfeats (zero_state ops64 2 3) = Ret (w, Xw) /\
  rounds ops64 dm df (l1l2_penalty ops64) (Dataset X ry) d eq64 2 3 (tenth 1) (2 * 2) 1 (zero_state ops64 2 3) (w, Xw) /\
  tested ops64 df (l1l2_penalty ops64) (Dataset X ry) d eq64 2 (tenth 1) true (w, Xw) /\
  (forall j g, (j < 2)%nat -> df_gradient_j df d (Dataset X ry) Xw j = Ret g -> finite 53 1024 g).
Lemma okrun_en_ex : okrun_en = true -> run_example_en.
Proof.
  unfold okrun_en, run_example_en. destruct (df_initialize _ _ _) as [d|]; [|discriminate]. destruct (solve _ _ _ _ _ _ _ _ _) as [w|]; [|discriminate]. destruct (foldM _ _ _) as [[w1 Xw]|] eqn:EF; [|discriminate]. cbn [fst snd].
  intros H. apply andb_true_iff in H as [H H7]. apply andb_true_iff in H as [H H6]. apply andb_true_iff in H as [H H5]. apply andb_true_iff in H as [H H4]. apply andb_true_iff in H as [H H3]. apply andb_true_iff in H as [H1 H2].
  apply same_eq in H1. subst w1. apply test_en_ok in H5, H6. rewrite forallb_forall in H2, H3, H7. exists d, w, Xw. split; [reflexivity|]. split; [reflexivity|]. split.
  { apply nz_fin in H4 as [_ H4]. exists (nth 0 w (f0 ops64)). split; [|exact H4]. destruct w; [vm_compute in H4; discriminate|reflexivity]. }
  split; [exact H2|]. split; [exact H3|]. split; [exact EF|]. split.
  { apply rounds_more with (w, Xw); [exact H5| |apply rounds_none]. exists (zero_state ops64 2 3), cfeats. split; [left; reflexivity|]. split; [apply le_n|exact EF]. }
  split; [exact H6|]. intros j g Hj Eg. specialize (H7 j). rewrite Eg in H7. apply H7, in_seq. lia.
Qed.
End G.
Lemma okrun_en_dense : okrun_en (dense_dm ops64) (quad_dense ops64) rX = true. Proof. vm_compute. reflexivity. Qed.
Lemma okrun_en_sparse : okrun_en (sparse_dm ops64) (quad_sparse ops64) rC = true. Proof. vm_compute. reflexivity. Qed.
Lemma ex_epr : (finite 53 1024 (p_alpha epr) /\ 0 < B2R (p_alpha epr))%R /\ (finite 53 1024 (p_shape epr) /\ 0 <= B2R (p_shape epr) <= 1)%R /\ finite 53 1024 (p_tolerance epr) /\ p_max_iterations epr = 5%nat.
Proof.
  split; [split; [vm_compute; reflexivity|]|split; [split; [vm_compute; reflexivity|]|split; [vm_compute; reflexivity|reflexivity]]].
  - change (p_alpha epr) with (bone 53 1024 Hprec64 Hmax64). unfold bone. rewrite Bone_correct. lra.
  - rewrite b2r_sf. replace (B2SF (p_shape epr)) with (SpecFloat.S754_finite false 4503599627370496 (-53)) by (vm_compute; reflexivity).
    unfold SF2R, F2R. cbn [Fnum Fexp cond_Zopp]. change (IZR (Z.pos 4503599627370496)) with 4503599627370496%R. change (bpow radix2 (-53)) with (/ IZR 9007199254740992)%R. lra.
Qed.
