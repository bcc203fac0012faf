(** Double-precision instances of the hypotheses of the theorems about whole runs. *)
From Coq Require Import List ZArith Bool Arith Lia Reals Lra.
From Flocq Require Import Core BinarySingleNaN.
From Verif Require Import Ops Arr IEEE RSum SpecRound SpecData SpecSolve SpecTrace SpecDrift PFloat PRoundPen PRoundEx PRunsEx PNullEx2 MUtils MDatasets MDatafits MPenalties MCd MHyper MEstimators PTraceFit.
Import ListNotations.

(** alpha 1, five rounds of two epochs, tolerance 1/10 *)
Definition cpr : params f64 := Params (f1 ops64) (f0 ops64) 5 2 10 (tenth 1) 2 false false.
Definition csolver : solver f64 := Solver 10 5 2 (tenth 1) 2 false false.
Definition sf_dec : forall a b : SpecFloat.spec_float, {a = b} + {a <> b}.
Proof. decide equality; try apply Z.eq_dec; try apply Pos.eq_dec; try apply Bool.bool_dec. Defined.
Definition same (a b : list f64) : bool := if list_eq_dec sf_dec (map B2SF a) (map B2SF b) then true else false.
Lemma same_eq a b : same a b = true -> a = b.
Proof.
  unfold same. destruct (list_eq_dec _ _ _) as [E|]; [|discriminate]. intros _. revert b E. induction a as [|x a IH]; intros [|y b] E; try discriminate; [reflexivity|].
  cbn [map] in E. injection E as E1 E2. apply B2SF_inj in E1. rewrite E1, (IH b E2). reflexivity.
Qed.
Definition cfeats : list nat := [0; 1; 0; 1]%nat.

Section G.
Context {DM : Type} (dm : DesignMatrix f64 DM) (df : Datafit f64 DM (quadratic f64)) (X : DM).
Definition test (d : quadratic f64) (b : bool) (s : list f64 * list f64) : bool :=
  match opt_cond_violation df (l1_penalty ops64) (Dataset X ry) (fst s) (snd s) (seq 0 2) d (L1 (f1 ops64)) with Ret (_, worst) => eqb (fle ops64 worst (tenth 1)) b | _ => false end.
Lemma test_ok d b s : test d b s = true -> tested ops64 df (l1_penalty ops64) (Dataset X ry) d (L1 (f1 ops64)) 2 (tenth 1) b s.
Proof. unfold test, tested. destruct (opt_cond_violation _ _ _ _ _ _ _ _) as [[sc w]|]; [|discriminate]. intros H. apply eqb_prop in H. exists sc, w. auto. Qed.
Definition okrun : bool :=
  match df_initialize df (quadratic_new ops64) (Dataset X ry), solve ops64 srt64 dm df (l1_penalty ops64) csolver (Dataset X ry) (quadratic_new ops64) (L1 (f1 ops64)) with
  | Ret d, Ret w => match foldM (cd_step ops64 dm df (l1_penalty ops64) (Dataset X ry) d (L1 (f1 ops64))) cfeats (zero_state ops64 2 3) with
      | Ret s => same (fst s) w && forallb fin w && forallb fin (snd s) && nz (nth 0 w (f0 ops64)) && test d false (zero_state ops64 2 3) && test d true s
          && forallb (fun j => match df_gradient_j df d (Dataset X ry) (snd s) j with Ret g => negb (is_nan g) | _ => false end) (seq 0 2)
      | _ => false end
  | _, _ => false end.
Definition run_example : Prop := exists d w Xw, df_initialize df (quadratic_new ops64) (Dataset X ry) = Ret d /\
  solve ops64 srt64 dm df (l1_penalty ops64) csolver (Dataset X ry) (quadratic_new ops64) (L1 (f1 ops64)) = Ret w /\ nonzero ops64 w 0 /\ (forall x, In x w -> finite 53 1024 x) /\ (forall x, In x Xw -> finite 53 1024 x) /\
  foldM (cd_step ops64 dm df (l1_penalty ops64) (Dataset X ry) d (L1 (f1 ops64))) cfeats (zero_state ops64 2 3) = Ret (w, Xw) /\
  rounds ops64 dm df (l1_penalty ops64) (Dataset X ry) d (L1 (f1 ops64)) 2 3 (tenth 1) (2 * 2) 1 (zero_state ops64 2 3) (w, Xw) /\
  tested ops64 df (l1_penalty ops64) (Dataset X ry) d (L1 (f1 ops64)) 2 (tenth 1) true (w, Xw) /\
  (forall j g, (j < 2)%nat -> df_gradient_j df d (Dataset X ry) Xw j = Ret g -> is_nan g = false).
Lemma okrun_ex : okrun = true -> run_example.
Proof.
  unfold okrun, run_example. destruct (df_initialize _ _ _) as [d|]; [|discriminate]. destruct (solve _ _ _ _ _ _ _ _ _) as [w|]; [|discriminate]. destruct (foldM _ _ _) as [[w1 Xw]|] eqn:EF; [|discriminate]. cbn [fst snd].
  intros H. apply andb_true_iff in H as [H H7]. apply andb_true_iff in H as [H H6]. apply andb_true_iff in H as [H H5]. apply andb_true_iff in H as [H H4]. apply andb_true_iff in H as [H H3]. apply andb_true_iff in H as [H1 H2].
  apply same_eq in H1. subst w1. apply test_ok in H5, H6. rewrite forallb_forall in H2, H3, H7. exists d, w, Xw. split; [reflexivity|]. split; [reflexivity|]. split.
  { apply nz_fin in H4 as [_ H4]. exists (nth 0 w (f0 ops64)). split; [|exact H4]. destruct w; [vm_compute in H4; discriminate|reflexivity]. }
  split; [exact H2|]. split; [exact H3|]. split; [exact EF|]. split.
  { apply rounds_more with (w, Xw); [exact H5| |apply rounds_none]. exists (zero_state ops64 2 3), cfeats. split; [left; reflexivity|]. split; [apply le_n|exact EF]. }
  split; [exact H6|]. intros j g Hj Eg. specialize (H7 j). rewrite Eg in H7. apply negb_true_iff, H7, in_seq. lia.
Qed.
End G.
Lemma okrun_dense : okrun (dense_dm ops64) (quad_dense ops64) rX = true. Proof. vm_compute. reflexivity. Qed.
Lemma okrun_sparse : okrun (sparse_dm ops64) (quad_sparse ops64) rC = true. Proof. vm_compute. reflexivity. Qed.

(** the column lists of the compressed matrix *)
Definition rcs (j : nat) : list (nat * f64) :=
  match j with 0 => [(0, f64_of 1); (2, f64_of 3)] | 1 => [(0, f64_of 2); (1, f64_of 1); (2, f64_of (-1))] | _ => [] end%nat.
Lemma rC_stores : stores 53 1024 3 2 rcs rC.
Proof.
  split; [reflexivity|]. intros [|[|j]] Hj; [| |lia].
  - split; [exists 0%nat; split; [reflexivity|split; [reflexivity|]]|].
    + intros [|[|k]] e Hk; cbn [rcs nth_error] in Hk; try (injection Hk as <-; split; reflexivity). destruct k; discriminate.
    + split; [repeat constructor; cbn; lia|]. intros e [<-|[<-|[]]]; cbn; lia.
  - split; [exists 2%nat; split; [reflexivity|split; [reflexivity|]]|].
    + intros [|[|[|k]]] e Hk; cbn [rcs nth_error] in Hk; try (injection Hk as <-; split; reflexivity). destruct k; discriminate.
    + split; [repeat constructor; cbn; lia|]. intros e [<-|[<-|[<-|[]]]]; cbn; lia.
Qed.
Lemma ex_cpr : finite 53 1024 (p_alpha cpr) /\ (0 <= B2R (p_alpha cpr))%R /\ finite 53 1024 (p_tolerance cpr) /\ p_max_iterations cpr = 5%nat.
Proof.
  split; [vm_compute; reflexivity|]. split; [|split; [vm_compute; reflexivity|reflexivity]].
  rewrite b2r_sf. replace (B2SF (p_alpha cpr)) with (SpecFloat.S754_finite false 4503599627370496 (-52)) by (vm_compute; reflexivity).
  unfold SF2R, F2R. cbn [Fnum Fexp cond_Zopp]. apply Rmult_le_pos; [apply IZR_le; lia|apply bpow_ge_0].
Qed.
