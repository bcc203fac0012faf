(** Witnesses and concrete instances for [PropNull]. *)
From Coq Require Import List ZArith Bool Arith Lia Reals Lra.
From Flocq Require Import Core BinarySingleNaN.
From Verif Require Import Ops Arr MUtils MDatasets MDatafits MDatafitsMT MPenalties MBlockPenalties MCd MBcd MHyper MEstimators XR IEEE VecR RSum SpecPen SpecLin SpecData SpecOpt SpecAccel PRunsEx PSymEx POptEx.
Import ListNotations.

(** *** floating point: three samples, two tasks, all entries one, no tolerance *)
Definition thX : mat f64 := Mat 3 1 (repeat [f1 ops64] 3).
Definition thY : mat f64 := Mat 3 2 (repeat [f1 ops64; f1 ops64] 3).
Definition thpr (a : f64) : params f64 := Params a (f1 ops64) 1 1 10 (f0 ops64) 5 true false.
Definition th_bad : bool :=
  match compute_alpha_max_mtl ops64 thX thY with
  | Ret am => match fit_unchecked (mt_lasso_check_ref ops64) (mt_lasso_fit_dense ops64 srt64) (thpr am) (Dataset thX (T2 thY)) with
              | Ret (Ok W) => existsb (any_nonzero ops64) (mrows W)
              | _ => false end
  | _ => false end.
Lemma th_bad_true : th_bad = true.
Proof. vm_compute. reflexivity. Qed.
Lemma th_refuted : exists am W, compute_alpha_max_mtl ops64 thX thY = Ret am /\
  fit_unchecked (mt_lasso_check_ref ops64) (mt_lasso_fit_dense ops64 srt64) (thpr am) (Dataset thX (T2 thY)) = Ret (Ok W) /\ existsb (any_nonzero ops64) (mrows W) = true.
Proof.
  pose proof th_bad_true as H. unfold th_bad in H. destruct (compute_alpha_max_mtl ops64 thX thY) as [am|]; [|discriminate]. exists am.
  destruct (fit_unchecked _ _ _ _) as [[W|]|]; try discriminate. exists W. auto.
Qed.

(** *** unpenalised multi-task Lasso on finite data *)
Definition znX : mat f64 := Mat 5 5 (map (fun i => map (fun j => if Nat.eqb i j then f1 ops64 else f0 ops64) (seq 0 5)) (seq 0 5)).
Definition znY : mat f64 := Mat 5 1 [[f0 ops64]; [f1 ops64]; [f1 ops64]; [f1 ops64]; [f1 ops64]].
Definition znpr : params f64 := set_alpha (f0 ops64) (mt_lasso_params_new ops64).
Definition zn_bad : bool :=
  match fit_unchecked (mt_lasso_check_ref ops64) (mt_lasso_fit_dense ops64 srt64) znpr (Dataset znX (T2 znY)) with
  | Ret (Ok W) => (Nat.eqb (length (mrows W)) 5) && forallb (fun r => (Nat.eqb (length r) 1) && forallb (fun x => is_nan x) r) (mrows W)
  | _ => false end.
Lemma zn_bad_true : zn_bad = true.
Proof. vm_compute. reflexivity. Qed.
Lemma zn_refuted : (forall r x, In r (mrows znX ++ mrows znY) -> In x r -> is_finite x = true) /\
  exists W, fit_unchecked (mt_lasso_check_ref ops64) (mt_lasso_fit_dense ops64 srt64) znpr (Dataset znX (T2 znY)) = Ret (Ok W) /\
    length (mrows W) = 5%nat /\ forall r, In r (mrows W) -> length r = 1%nat /\ forall x, In x r -> is_nan x = true.
Proof.
  split.
  - intros r x Hr Hx. assert (E : forallb (fun r => forallb (fun x : f64 => is_finite x) r) (mrows znX ++ mrows znY) = true) by (vm_compute; reflexivity).
    rewrite forallb_forall in E. specialize (E r Hr). rewrite forallb_forall in E. auto.
  - pose proof zn_bad_true as H. unfold zn_bad in H. destruct (fit_unchecked _ _ _ _) as [[W|]|]; try discriminate. exists W. split; auto.
    apply andb_true_iff in H as [H1 H2]. split; [apply Nat.eqb_eq; auto|]. intros r Hr. rewrite forallb_forall in H2. specialize (H2 r Hr). apply andb_true_iff in H2 as [H2 H3].
    split; [apply Nat.eqb_eq; auto|]. apply forallb_forall. auto.
Qed.

(** *** extrapolation: two coefficients, [K = 2] *)
Local Open Scope R_scope.
Definition cX : rmat := fun i j => if Nat.eqb i j then 1 else 0.
Definition cy (i : nat) : R := if Nat.eqb i 0 then 12/5 else 1.
(** the three iterates (0,1), (2,1), (4,2) *)
Definition cH : rmat := fun k j => match k, j with O, O => 0 | O, _ => 1 | 1%nat, O => 2 | 1%nat, _ => 1 | _, O => 4 | _, _ => 2 end.
Definition cds : dataset (mat xr) xr := Dataset (xm 2 2 cX) (T1 (xv 2 cy)).
Definition cf := accel_call (dense_dm xops) (quad_dense xops) (LassoPen 0) cds (Quad [Fin (1/2); Fin (1/2)] [Fin (12/5); Fin 1]).
Ltac fq := match goal with |- context [Reqb ?a ?b] => first [rewrite (proj2 (Reqb_false a b)) by lra | rewrite (proj2 (Reqb_spec a b)) by lra] end.
Lemma c_accel : single_accel 2 2 cX cy Squared (LassoPen 0) cf.
Proof.
  apply (accel_quad_dense 2 2 cX cy (LassoPen 0) (Quad [] [])); [left; reflexivity|simpl; lra|].
  cbn. repeat fq. unfold cX, cy. cbn. repeat (f_equal; try field).
Qed.
Lemma c_diffs : mapM (fun rr => vsub xops (snd rr) (fst rr)) (combine (firstn 2 (mrows (xm 3 2 cH))) (skipn 1 (mrows (xm 3 2 cH)))) = Ret [[Fin 2; Fin 0]; [Fin 2; Fin 1]].
Proof. cbn. repeat (f_equal; try lra). Qed.
Lemma c_gram : mtm xops (Mat 2 2 [[Fin 2; Fin 0]; [Fin 2; Fin 1]]) (Mat 2 2 [[Fin 2; Fin 0]; [Fin 2; Fin 1]]) = Ret (Mat 2 2 [[Fin 8; Fin 2]; [Fin 2; Fin 1]]).
Proof. cbn. repeat (f_equal; try lra). Qed.
Lemma c_solve : solve_lin_sys xops (Mat 2 2 [[Fin 8; Fin 2]; [Fin 2; Fin 1]]) [Fin 1; Fin 1] = Ret (Ok [Fin (-1/4); Fin (3/2)]).
Proof.
  cbn. repeat fq. cbn. repeat fq. cbn. replace (1 - 2 / 8 * 2) with (1/2) by field. repeat fq. cbn. repeat fq. cbn. repeat fq. cbn.
  repeat (f_equal; try field).
Qed.
Lemma c_point : anderson_point xops (xm 3 2 cH) 2 2 = Ret (Some [Fin (12/5); Fin 1]).
Proof.
  unfold anderson_point. rewrite c_diffs. cbn [bind concat app]. change (reshape 2 2 [Fin 2; Fin 0; Fin 2; Fin 1]) with (Ret (Mat 2 2 [[Fin 2; Fin 0]; [Fin 2; Fin 1]])). cbn [bind].
  rewrite c_gram. cbn [bind repeat f1 xops]. rewrite c_solve. cbn. repeat fq. cbn. repeat (f_equal; try field).
Qed.
Lemma c_result : cf (xm 3 2 cH) (xv 2 (cH 2%nat)) (xv 2 (cH 2%nat)) [0%nat; 1%nat] 2%nat 2%nat false = Ret ([Fin (12/5); Fin 1], [Fin (12/5); Fin 1], xm 3 2 cH).
Proof.
  unfold cf, accel_call, anderson_accel. cbn [dm_n_features dense_dm bind].
  change (store_iterate (xm 3 2 cH) (xv 2 (cH 2%nat)) [0%nat; 1%nat] (2 mod 3)) with (Ret (xm 3 2 cH)). cbn [bind Nat.modulo Nat.divmod Nat.sub Nat.eqb fst snd length]. rewrite c_point.
  cbn. rewrite !(proj2 (Reqb_false (1 + 1 + 1 + 1) 0)) by lra. unfold cX. cbn. 
  replace (0 + 1 * (12 / 5) + 0 * 1) with (12/5) by field. replace (0 + 0 * (12 / 5) + 1 * 1) with 1 by field. 
  rewrite (proj2 (Rltb_spec _ _)); [reflexivity|].
  lra.
Qed.
Lemma anderson_refuted : exists n p X y f H w w' c0 c1 b0 b1,
  single_accel n p X y Squared (LassoPen 0) f /\
  f (xm 3 p H) (xv p w) (xv n (lin p X w)) (seq 0 p) 2%nat 2%nat false = Ret (xv p w', xv n (lin p X w'), xm 3 p H) /\
  (forall j, H 2%nat j = w j) /\
  (* the result combines the first two iterates with weights [c0] and [c1], and with no others *)
  (forall e0 e1, (forall j, (j < p)%nat -> w' j = e0 * H 0%nat j + e1 * H 1%nat j) <-> e0 = c0 /\ e1 = c1) /\
  c0 + c1 = 1 /\ b0 + b1 = 1 /\
  Sum p (fun j => (b0 * (H 1%nat j - H 0%nat j) + b1 * (H 2%nat j - H 1%nat j)) ^ 2) <
  Sum p (fun j => (c0 * (H 1%nat j - H 0%nat j) + c1 * (H 2%nat j - H 1%nat j)) ^ 2).
Proof.
  exists 2%nat, 2%nat, cX, cy, cf, cH, (cH 2%nat), cy, (-1/5), (6/5), 1, 0. split; [apply c_accel|]. split.
  - assert (E : forall v, xv 2 (lin 2 cX v) = xv 2 v). { intros v. cbn. unfold lin, Sum, cX. cbn. repeat (f_equal; try lra). }
    rewrite !E. exact c_result.
  - split; [auto|]. split.
    + intros e0 e1. split.
      * intros E. assert (E0 := E 0%nat ltac:(lia)). assert (E1 := E 1%nat ltac:(lia)). unfold cy, cH in E0, E1. cbn in E0, E1. lra.
      * intros [-> ->] j Hj. destruct j as [|[|j]]; unfold cy, cH; cbn; try lra.
    + split; [lra|]. split; [lra|]. unfold Sum, cH. cbn. lra.
Qed.
Lemma th_witness : exists X Y am pr W, compute_alpha_max_mtl ops64 X Y = Ret am /\ p_alpha pr = am /\ fle ops64 (f0 ops64) (p_tolerance pr) = true /\
  fit_unchecked (mt_lasso_check_ref ops64) (mt_lasso_fit_dense ops64 srt64) pr (Dataset X (T2 Y)) = Ret (Ok W) /\ existsb (any_nonzero ops64) (mrows W) = true.
Proof.
  destruct th_refuted as (am & W & H1 & H2 & H3). exists thX, thY, am, (thpr am), W. repeat split; auto.
Qed.
Lemma zn_witness : exists X Y pr,
  (forall r x, In r (mrows X ++ mrows Y) -> In x r -> is_finite x = true) /\ pr = set_alpha (f0 ops64) (mt_lasso_params_new ops64) /\
  exists W, fit_unchecked (mt_lasso_check_ref ops64) (mt_lasso_fit_dense ops64 srt64) pr (Dataset X (T2 Y)) = Ret (Ok W) /\
    length (mrows W) = 5%nat /\ forall r, In r (mrows W) -> length r = 1%nat /\ forall x, In x r -> is_nan x = true.
Proof. exists znX, znY, znpr. destruct zn_refuted. split; auto. Qed.
