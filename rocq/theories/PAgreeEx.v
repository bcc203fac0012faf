(** Single- and double-precision runs on the same data. *)
From Coq Require Import List ZArith Bool Arith Lia Reals Lra.
From Flocq Require Import Core BinarySingleNaN.
From Verif Require Import Ops Arr IEEE RSum SpecPen SpecRound SpecData SpecSolve SpecOpt SpecBudget SpecTrace SpecDrift SpecDriftEnet SpecAgree PLaws PFloat PRoundPen PRoundEx PRunsEx PNullEx2 PTraceEx PTraceEnetEx MUtils MDatasets MDatafits MPenalties MCd MHyper MEstimators.
Import ListNotations.

(** single precision *)
Definition f32 : Set := binary_float 24 128.
Definition Hprec32 : Prec_gt_0 24 := eq_refl.
Definition Hmax32 : Prec_lt_emax 24 128 := eq_refl.
Definition libm32 : libm 24 128 := seq_libm 24 128 Hprec32 Hmax32 (fun x => x) (fun x => x) (fun x => x) (fun x => x) (bone 24 128 Hprec32 Hmax32) (fun x _ => x).
Definition ops32 : FOps f32 := ieee_ops 24 128 Hprec32 Hmax32 libm32.
Definition f32_of (z : Z) : f32 := flit ops32 z 1.
Definition srt32 : list f32 -> list nat := dsort ops32.
Lemma srt32_ok : valid_sort ops32 srt32. Proof. apply (ieee_sort 24 128). Qed.
Lemma reduces32 : reduces 24 128 Hprec32 Hmax32 libm32. Proof. apply seq_reduces. Qed.
Definition sX : mat f32 := Mat 3 2 (map (map f32_of) [[1; 2]; [0; 1]; [3; -1]]%Z).
Definition sy : targets f32 := T1 (map f32_of [3; -1; 4]%Z).
(** alpha 11/10, l1 ratio 1/2, five rounds of two epochs, tolerance 1/10 *)
Definition spr : params f32 := Params (flit ops32 11 10) (flit ops32 1 2) 5 2 10 (flit ops32 1 10) 2 false false.
(** the exact data *)
Definition agE (i j : nat) : R := IZR (nth j (nth i [[1; 2]; [0; 1]; [3; -1]] []) 0)%Z.
Definition agy (i : nat) : R := IZR (nth i [3; -1; 4] 0)%Z.

Section F.
Context (prec emax : Z) (Hp : Prec_gt_0 prec) (Hm : Prec_lt_emax prec emax) (m : libm prec emax).
Local Notation bf := (binary_float prec emax).
Local Notation o := (ieee_ops prec emax Hp Hm m).
Definition sameF (a b : list bf) : bool := if list_eq_dec sf_dec (map B2SF a) (map B2SF b) then true else false.
Lemma sameF_eq a b : sameF a b = true -> a = b.
Proof.
  unfold sameF. destruct (list_eq_dec _ _ _) as [E|]; [|discriminate]. intros _. revert b E. induction a as [|x a IH]; intros [|y b] E; try discriminate; [reflexivity|].
  cbn [map] in E. injection E as E1 E2. apply B2SF_inj in E1. rewrite E1, (IH b E2). reflexivity.
Qed.
Section G.
Context {DM P : Type} (dm : DesignMatrix bf DM) (df : Datafit bf DM (quadratic bf)) (pen : Penalty bf P) (q : P) (ds : dataset DM bf) (v : params bf) (srt : list bf -> list nat).
Local Notation st := (Solver (p_ws_start_size v) (p_max_iterations v) (p_max_epochs v) (p_tolerance v) (p_K v) (p_use_acceleration v) (p_verbose v)).
Definition testF (d : quadratic bf) (s : list bf * list bf) : bool :=
  match opt_cond_violation df pen ds (fst s) (snd s) (seq 0 2) d q with Ret (_, worst) => negb (fle o worst (p_tolerance v)) | _ => false end.
Lemma testF_ok d s : testF d s = true -> tested o df pen ds d q 2 (p_tolerance v) false s.
Proof. unfold testF, tested. destruct (opt_cond_violation _ _ _ _ _ _ _ _) as [[sc w]|]; [|discriminate]. intros H. apply negb_true_iff in H. exists sc, w. auto. Qed.
Definition okF : bool :=
  match df_initialize df (quadratic_new o) ds, solve o srt dm df pen st ds (quadratic_new o) q with
  | Ret d, Ret w => match foldM (cd_step o dm df pen ds d q) cfeats (zero_state o 2 3) with
      | Ret s => sameF (fst s) w && forallb (fun x => is_finite x) w && negb (feq o (nth 0 w (f0 o)) (f0 o)) && testF d (zero_state o 2 3)
          && forallb (fun j => match df_gradient_j df d ds (snd s) j with Ret g => is_finite g | _ => false end) (seq 0 2)
      | _ => false end
  | _, _ => false end.
Lemma okF_run : okF = true -> (p_max_epochs v = 2)%nat -> (1 <= p_max_iterations v)%nat -> exists w, solve o srt dm df pen st ds (quadratic_new o) q = Ret w /\ nonzero o w 0 /\
  exists d s0 js Xw, course prec emax Hp Hm m dm df pen ds q 3 2 v w d 1 s0 js Xw /\ forall ps E y, exists e, resolves prec emax Hp Hm m dm df pen ds q ps E y 3 2 v w d s0 js Xw e.
Proof.
  intros H Ep It. unfold okF in H. destruct (df_initialize df (quadratic_new o) ds) as [d|] eqn:EI; [|discriminate]. destruct (solve _ _ _ _ _ _ _ _ _) as [w|]; [|discriminate]. destruct (foldM _ _ _) as [[w1 Xw]|] eqn:EF; [|discriminate]. cbn [fst snd] in H.
  apply andb_true_iff in H as [H H5]. apply andb_true_iff in H as [H H4]. apply andb_true_iff in H as [H H3]. apply andb_true_iff in H as [H1 H2].
  apply sameF_eq in H1. subst w1. apply testF_ok in H4. rewrite forallb_forall in H2, H5. apply negb_true_iff in H3. exists w. split; [reflexivity|]. split.
  { exists (nth 0 w (f0 o)). split; [|exact H3]. destruct w; [cbn in H3; discriminate|reflexivity]. }
  exists d, (zero_state o 2 3), cfeats, Xw. split.
  - split; [exact EI|]. split; [exact It|]. split; [|split; [left; reflexivity|split; [rewrite Ep; apply le_n|exact EF]]].
    apply rounds_more with (w, Xw); [exact H4| |apply rounds_none]. exists (zero_state o 2 3), cfeats. split; [left; reflexivity|]. split; [rewrite Ep; apply le_n|exact EF].
  - intros ps E y. set (f j := (B2R (p_tolerance v) + (1 + urd prec) * (slack prec emax E 2 3 y (atR prec emax w) (history prec emax o dm df pen ds d q 2 cfeats (zero_state o 2 3)) j + ps (atR prec emax w j)))%R).
    destruct (bounded f 2) as [M HM]. exists (M / (1 - urd prec))%R. split; [|split; [exact H2|]].
    + intros j g Hj Eg. specialize (H5 j). rewrite Eg in H5. apply H5, in_seq. lia.
    + intros j Hj. specialize (HM j Hj). unfold f in HM. pose proof (u_le1 prec Hp). replace ((1 - urd prec) * (M / (1 - urd prec)))%R with M by (field; lra). exact HM.
Qed.
End G.
End F.
Lemma ok32 : okF 24 128 Hprec32 Hmax32 libm32 (dense_dm ops32) (quad_dense ops32) (l1l2_penalty ops32) (L1PlusL2 (p_alpha spr) (p_shape spr)) (Dataset sX sy) spr srt32 = true.
Proof. vm_compute. reflexivity. Qed.
Lemma ok64 : okF 53 1024 Hprec64 Hmax64 libm64 (sparse_dm ops64) (quad_sparse ops64) (l1l2_penalty ops64) (L1PlusL2 (p_alpha epr) (p_shape epr)) (Dataset rC ry) epr srt64 = true.
Proof. vm_compute. reflexivity. Qed.
Lemma ok64l : okF 53 1024 Hprec64 Hmax64 libm64 (dense_dm ops64) (quad_dense ops64) (l1_penalty ops64) (L1 (p_alpha cpr)) (Dataset rX ry) cpr srt64 = true.
Proof. vm_compute. reflexivity. Qed.

Open Scope R_scope.
Lemma r64 z : In z [-1; 0; 1; 2; 3; 4]%Z -> B2R (f64_of z) = IZR z.
Proof.
  intros H. rewrite b2r_sf. repeat destruct H as [<-|H]; [..|destruct H].
  - replace (B2SF (f64_of (-1))) with (SpecFloat.S754_finite true 4503599627370496 (-52)) by (vm_compute; reflexivity). unfold SF2R, F2R. cbn [Fnum Fexp cond_Zopp]. change (bpow radix2 (-52)) with (/ IZR 4503599627370496). change (IZR (- Z.pos 4503599627370496)) with (-4503599627370496). lra.
  - vm_compute (B2SF _). reflexivity.
  - replace (B2SF (f64_of 1)) with (SpecFloat.S754_finite false 4503599627370496 (-52)) by (vm_compute; reflexivity). unfold SF2R, F2R. cbn [Fnum Fexp cond_Zopp]. change (bpow radix2 (-52)) with (/ IZR 4503599627370496). lra.
  - replace (B2SF (f64_of 2)) with (SpecFloat.S754_finite false 4503599627370496 (-51)) by (vm_compute; reflexivity). unfold SF2R, F2R. cbn [Fnum Fexp cond_Zopp]. change (bpow radix2 (-51)) with (/ IZR 2251799813685248). lra.
  - replace (B2SF (f64_of 3)) with (SpecFloat.S754_finite false 6755399441055744 (-51)) by (vm_compute; reflexivity). unfold SF2R, F2R. cbn [Fnum Fexp cond_Zopp]. change (bpow radix2 (-51)) with (/ IZR 2251799813685248). lra.
  - replace (B2SF (f64_of 4)) with (SpecFloat.S754_finite false 4503599627370496 (-50)) by (vm_compute; reflexivity). unfold SF2R, F2R. cbn [Fnum Fexp cond_Zopp]. change (bpow radix2 (-50)) with (/ IZR 1125899906842624). lra.
Qed.
Lemma r32 z : In z [-1; 0; 1; 2; 3; 4]%Z -> B2R (f32_of z) = IZR z.
Proof.
  intros H. rewrite <- SF2R_B2SF. repeat destruct H as [<-|H]; [..|destruct H].
  - replace (B2SF (f32_of (-1))) with (SpecFloat.S754_finite true 8388608 (-23)) by (vm_compute; reflexivity). unfold SF2R, F2R. cbn [Fnum Fexp cond_Zopp]. change (bpow radix2 (-23)) with (/ IZR 8388608). change (IZR (- Z.pos 8388608)) with (-8388608). lra.
  - vm_compute (B2SF _). reflexivity.
  - replace (B2SF (f32_of 1)) with (SpecFloat.S754_finite false 8388608 (-23)) by (vm_compute; reflexivity). unfold SF2R, F2R. cbn [Fnum Fexp cond_Zopp]. change (bpow radix2 (-23)) with (/ IZR 8388608). lra.
  - replace (B2SF (f32_of 2)) with (SpecFloat.S754_finite false 8388608 (-22)) by (vm_compute; reflexivity). unfold SF2R, F2R. cbn [Fnum Fexp cond_Zopp]. change (bpow radix2 (-22)) with (/ IZR 4194304). lra.
  - replace (B2SF (f32_of 3)) with (SpecFloat.S754_finite false 12582912 (-22)) by (vm_compute; reflexivity). unfold SF2R, F2R. cbn [Fnum Fexp cond_Zopp]. change (bpow radix2 (-22)) with (/ IZR 4194304). lra.
  - replace (B2SF (f32_of 4)) with (SpecFloat.S754_finite false 8388608 (-21)) by (vm_compute; reflexivity). unfold SF2R, F2R. cbn [Fnum Fexp cond_Zopp]. change (bpow radix2 (-21)) with (/ IZR 2097152). lra.
Qed.
Ltac member := cbn [In]; repeat (first [left; reflexivity|right]).
Lemma e64 i j : (i < 3)%nat -> (j < 2)%nat -> entR 53 1024 rX i j = agE i j.
Proof. intros Hi Hj. destruct i as [|[|[|i]]]; [| | |lia]; (destruct j as [|[|j]]; [| |lia]); unfold entR, colR, val, rX, agE; cbn [mrows map nth]; apply r64; member. Qed.
Lemma e32 i j : (i < 3)%nat -> (j < 2)%nat -> entR 24 128 sX i j = agE i j.
Proof. intros Hi Hj. destruct i as [|[|[|i]]]; [| | |lia]; (destruct j as [|[|j]]; [| |lia]); unfold entR, colR, val, sX, agE; cbn [mrows map nth]; apply r32; member. Qed.
Lemma s64 i j : (i < 3)%nat -> (j < 2)%nat -> storedR 53 1024 rcs i j = agE i j.
Proof. intros Hi Hj. destruct i as [|[|[|i]]]; [| | |lia]; (destruct j as [|[|j]]; [| |lia]); unfold storedR, rsum, rcs, agE; cbn [map nth fold_right fst snd Nat.eqb]; rewrite ?r64 by member; ring. Qed.
Lemma y64 i : (i < 3)%nat -> nth i (tgtR 53 1024 ry) 0 = agy i.
Proof. intros Hi. destruct i as [|[|[|i]]]; [| | |lia]; unfold tgtR, val, ry, agy; cbn [map nth]; apply r64; member. Qed.
Lemma y32 i : (i < 3)%nat -> nth i (tgtR 24 128 sy) 0 = agy i.
Proof. intros Hi. destruct i as [|[|[|i]]]; [| | |lia]; unfold tgtR, val, sy, agy; cbn [map nth]; apply r32; member. Qed.
Lemma ex_spr : (finite 24 128 (p_alpha spr) /\ 0 < B2R (p_alpha spr))%R /\ (finite 24 128 (p_shape spr) /\ 0 <= B2R (p_shape spr) <= 1)%R /\ finite 24 128 (p_tolerance spr).
Proof.
  split; [split; [vm_compute; reflexivity|]|split; [split; [vm_compute; reflexivity|]|vm_compute; reflexivity]].
  - rewrite <- SF2R_B2SF. replace (B2SF (p_alpha spr)) with (SpecFloat.S754_finite false 9227469 (-23)) by (vm_compute; reflexivity). unfold SF2R, F2R. cbn [Fnum Fexp cond_Zopp]. change (bpow radix2 (-23)) with (/ IZR 8388608). lra.
  - rewrite <- SF2R_B2SF. replace (B2SF (p_shape spr)) with (SpecFloat.S754_finite false 8388608 (-24)) by (vm_compute; reflexivity). unfold SF2R, F2R. cbn [Fnum Fexp cond_Zopp]. change (bpow radix2 (-24)) with (/ IZR 16777216). lra.
Qed.
Lemma shape_lt : B2R (p_shape spr) < 1.
Proof. rewrite <- SF2R_B2SF. replace (B2SF (p_shape spr)) with (SpecFloat.S754_finite false 8388608 (-24)) by (vm_compute; reflexivity). unfold SF2R, F2R. cbn [Fnum Fexp cond_Zopp]. change (bpow radix2 (-24)) with (/ IZR 16777216). lra. Qed.
Lemma ex_agree32 : exists k w C, float_fit 24 128 Hprec32 Hmax32 libm32 3 2 agE agy k spr w C /\ 0 < ridge k /\ nonzero ops32 w 0 /\ exists W e, C 1%nat W /\ W e.
Proof.
  destruct (okF_run _ _ _ _ _ _ _ _ _ _ _ _ ok32 eq_refl ltac:(cbn; lia)) as (w & EF & NZ & d & s0 & js & Xw & HC & HW). destruct ex_spr as ((Fa & Ha) & (Fr & Hr) & Ft).
  eexists _, w, _. split; [exact (fit_enet_dense 24 128 Hprec32 Hmax32 libm32 3 2 agE agy srt32 sX sy spr w reduces32 srt32_ok ltac:(lia) ltac:(repeat split; cbn; auto; repeat constructor) eq_refl Fa Ha Fr Hr Ft e32 y32 EF)|].
  split; [|split; [exact NZ|]].
  - change (0 < B2R (p_alpha spr) * (1 - B2R (p_shape spr))). apply Rmult_lt_0_compat; [exact Ha|]. apply Rlt_Rminus, shape_lt.
  - edestruct HW as (e & He). eexists _, e. split; [exists d, s0, js, Xw; split; [exact HC|reflexivity]|exact He].
Qed.
Lemma ex_agree64 : exists k w C, float_fit 53 1024 Hprec64 Hmax64 libm64 3 2 agE agy k epr w C /\ nonzero ops64 w 0 /\ exists W e, C 1%nat W /\ W e.
Proof.
  destruct (okF_run _ _ _ _ _ _ _ _ _ _ _ _ ok64 eq_refl ltac:(cbn; lia)) as (w & EF & NZ & d & s0 & js & Xw & HC & HW). destruct ex_epr as ((Fa & Ha) & (Fr & Hr) & Ft & _).
  eexists _, w, _. split; [exact (fit_enet_sparse 53 1024 Hprec64 Hmax64 libm64 3 2 agE agy srt64 rcs rC ry epr w srt64_ok ltac:(lia) rC_stores eq_refl Fa Ha Fr Hr Ft s64 y64 EF)|].
  split; [exact NZ|]. edestruct HW as (e & He). eexists _, e. split; [exists d, s0, js, Xw; split; [exact HC|reflexivity]|exact He].
Qed.
Lemma ex_agree64l : exists k w C, float_fit 53 1024 Hprec64 Hmax64 libm64 3 2 agE agy k cpr w C /\ nonzero ops64 w 0 /\ exists W e, C 1%nat W /\ W e.
Proof.
  destruct (okF_run _ _ _ _ _ _ _ _ _ _ _ _ ok64l eq_refl ltac:(cbn; lia)) as (w & EF & NZ & d & s0 & js & Xw & HC & HW). destruct ex_cpr as (Fa & Ha & Ft & _).
  eexists _, w, _. split; [exact (fit_lasso_dense 53 1024 Hprec64 Hmax64 libm64 3 2 agE agy srt64 rX ry cpr w reduces64 srt64_ok ltac:(lia) rX_shaped eq_refl Fa Ha Ft e64 y64 EF)|].
  split; [exact NZ|]. edestruct HW as (e & He). eexists _, e. split; [exists d, s0, js, Xw; split; [exact HC|reflexivity]|exact He].
Qed.
