(** Double-precision instances of the hypotheses of the rounding theorems. *)
From Coq Require Import List ZArith Bool Arith Lia Reals Lra.
From Flocq Require Import Core BinarySingleNaN.
From Verif Require Import Ops Arr IEEE SpecPen SpecRound SpecSolve SpecDatafit PBase PFloat PRoundPen PRunsEx PNullEx2 MUtils MDatasets MDatafits MPenalties MCd.
Import ListNotations.
Open Scope R_scope.

Definition tenth (z : Z) : f64 := fdiv ops64 (f64_of z) (f64_of 10).
Definition tX : mat f64 := Mat 3 2 (map (map tenth) [[1; 2]; [3; -1]; [7; 11]]%Z).
Definition tyv : list f64 := map tenth [3; -1; 4]%Z.
Definition ty : targets f64 := T1 tyv.
Definition tw : list f64 := map tenth [5; 0]%Z.
Definition tXw : list f64 := map (fun x => fmul ops64 x (tenth 5)) (map tenth [1; 3; 7]%Z).
Definition ta : f64 := tenth 1.
Lemma tX_shaped : shaped 3 2 tX.
Proof. split; [reflexivity|split; [reflexivity|split; [reflexivity|repeat constructor]]]. Qed.
Definition fin (x : f64) : bool := is_finite x.
Definition nz (x : f64) : bool := is_finite x && negb (feq ops64 x (f0 ops64)).

Definition okfit : bool :=
  match df_initialize (quad_dense ops64) (Quad [] []) (Dataset tX ty) with
  | Ret d => match df_gradient_j (quad_dense ops64) d (Dataset tX ty) tXw 1, nth_error (df_step_size (quad_dense ops64) d) 1, quad_value ops64 d (Dataset tX ty) tXw with
             | Ret g, Some L, Ret v => nz g && nz L && nz v | _, _, _ => false end
  | _ => false end.
Lemma okfit_true : okfit = true. Proof. vm_compute. reflexivity. Qed.
Lemma nz_fin x : nz x = true -> is_finite x = true /\ feq ops64 x (f0 ops64) = false.
Proof. unfold nz. intros H. apply andb_true_iff in H as [A B]. apply negb_true_iff in B. auto. Qed.
Lemma ex_fit : exists d g L v, df_initialize (quad_dense ops64) (Quad [] []) (Dataset tX ty) = Ret d /\
  df_gradient_j (quad_dense ops64) d (Dataset tX ty) tXw 1 = Ret g /\ finite 53 1024 g /\ feq ops64 g (f0 ops64) = false /\
  nth_error (df_step_size (quad_dense ops64) d) 1 = Some L /\ finite 53 1024 L /\ quad_value ops64 d (Dataset tX ty) tXw = Ret v /\ finite 53 1024 v /\ feq ops64 v (f0 ops64) = false.
Proof.
  pose proof okfit_true as H. unfold okfit in H. destruct (df_initialize _ _ _) as [d|]; [|discriminate].
  destruct (df_gradient_j _ _ _ _ _) as [g|] eqn:E1; [|discriminate]. destruct (nth_error _ _) as [L|] eqn:E2; [|discriminate]. destruct (quad_value _ _ _ _) as [v|] eqn:E3; [|discriminate].
  apply andb_true_iff in H as [H H3]. apply andb_true_iff in H as [H1 H2]. apply nz_fin in H1 as [A1 B1]. apply nz_fin in H2 as [A2 B2]. apply nz_fin in H3 as [A3 B3].
  exists d, g, L, v. repeat split; auto.
Qed.
Lemma ex_pen : finite 53 1024 (l1_value ops64 (L1 ta) tw) /\ feq ops64 (l1_value ops64 (L1 ta) tw) (f0 ops64) = false.
Proof. apply nz_fin. vm_compute. reflexivity. Qed.

Lemma largest p f : exists M, is_largest p f M.
Proof.
  induction p as [|p (M & A & B)].
  - exists 0. split; [intros j H; lia|right; auto].
  - destruct p as [|p].
    + exists (f 0%nat). split; [intros j H; replace j with 0%nat by lia; lra|left; exists 0%nat; split; [lia|reflexivity]].
    + destruct B as [(j & Hj & E)|[E _]]; [|discriminate]. exists (Rmax M (f (S p))). split.
      * intros k Hk. destruct (Nat.eq_dec k (S p)) as [->|]; [apply Rmax_r|]. eapply Rle_trans; [apply A; lia|apply Rmax_l].
      * left. destruct (Rle_dec M (f (S p))); [exists (S p); split; [lia|apply Rmax_right; lra]|exists j; split; [lia|rewrite <- E; apply Rmax_left; lra]].
Qed.
Lemma bounded (f : nat -> R) n : exists dl, forall i, (i < n)%nat -> f i <= dl.
Proof. destruct (largest n f) as (M & A & _). exists M. exact A. Qed.
Definition okmax : bool :=
  match mtv ops64 tX tyv, compute_alpha_max ops64 tX tyv with Ret b, Ret am => forallb fin b && nz am | _, _ => false end.
Lemma okmax_true : okmax = true. Proof. vm_compute. reflexivity. Qed.
Lemma ex_max : exists b am AM A, mtv ops64 tX tyv = Ret b /\ Forall (finite 53 1024) b /\ compute_alpha_max ops64 tX tyv = Ret am /\ finite 53 1024 am /\ feq ops64 am (f0 ops64) = false /\
  is_largest 2 (fun j => Rabs (dotp (colR 53 1024 tX j) (val 53 1024 tyv)) / INR 3) AM /\ is_largest 2 (fun j => adot (colR 53 1024 tX j) (val 53 1024 tyv)) A.
Proof.
  pose proof okmax_true as H. unfold okmax in H. destruct (mtv _ _ _) as [b|]; [|discriminate]. destruct (compute_alpha_max _ _ _) as [am|]; [|discriminate]. apply andb_true_iff in H as [H1 H2]. apply nz_fin in H2 as [A2 B2].
  destruct (largest 2 (fun j => Rabs (dotp (colR 53 1024 tX j) (val 53 1024 tyv)) / INR 3)) as [AM HM]. destruct (largest 2 (fun j => adot (colR 53 1024 tX j) (val 53 1024 tyv))) as [A HA].
  exists b, am, AM, A. repeat (split; auto). apply Forall_forall. intros x Hx. rewrite forallb_forall in H1. apply H1. exact Hx.
Qed.

Definition oksweep : bool :=
  match df_initialize (quad_dense ops64) (Quad [] []) (Dataset tX ty) with
  | Ret d => match foldM (cd_step ops64 (dense_dm ops64) (quad_dense ops64) (l1_penalty ops64) (Dataset tX ty) d (L1 (tenth 0))) [0; 1]%nat (tw, tXw) with
             | Ret (w', Xw') => forallb nz w' && forallb nz Xw' && fin (nth 1 Xw' (f0 ops64)) && negb (feq ops64 (nth 1 Xw' (f0 ops64)) (nth 1 tXw (f0 ops64))) | _ => false end
  | _ => false end.
Lemma oksweep_true : oksweep = true. Proof. vm_compute. reflexivity. Qed.
Lemma ex_sweep : exists d w' Xw', foldM (cd_step ops64 (dense_dm ops64) (quad_dense ops64) (l1_penalty ops64) (Dataset tX ty) d (L1 (tenth 0))) [0; 1]%nat (tw, tXw) = Ret (w', Xw') /\
  finite 53 1024 (nth 1 Xw' (f0 ops64)) /\ feq ops64 (nth 1 Xw' (f0 ops64)) (nth 1 tXw (f0 ops64)) = false.
Proof.
  pose proof oksweep_true as H. unfold oksweep in H. destruct (df_initialize _ _ _) as [d|]; [|discriminate]. destruct (foldM _ _ _) as [[w' Xw']|] eqn:E; [|discriminate].
  apply andb_true_iff in H as [H H3]. apply andb_true_iff in H as [H H2]. apply negb_true_iff in H3. exists d, w', Xw'. split; [exact E|]. split; [exact H2|exact H3].
Qed.

Definition okkkt : bool :=
  match df_initialize (quad_dense ops64) (Quad [] []) (Dataset tX ty) with
  | Ret d => match opt_cond_violation (quad_dense ops64) (l1_penalty ops64) (Dataset tX ty) tw tXw [0; 1]%nat d (L1 ta), df_gradient_j (quad_dense ops64) d (Dataset tX ty) tXw 0 with
             | Ret (kkt, mx), Ret g => match nth_error kkt 0 with Some sc => nz sc && fin g && fle ops64 mx (f1 ops64) | None => false end | _, _ => false end
  | _ => false end.
Lemma okkkt_true : okkkt = true. Proof. vm_compute. reflexivity. Qed.
Lemma ex_kkt : exists d kkt mx g sc dl wj, df_initialize (quad_dense ops64) (Quad [] []) (Dataset tX ty) = Ret d /\
  opt_cond_violation (quad_dense ops64) (l1_penalty ops64) (Dataset tX ty) tw tXw [0; 1]%nat d (L1 ta) = Ret (kkt, mx) /\ fle ops64 mx (f1 ops64) = true /\
  nth_error tw 0 = Some wj /\ finite 53 1024 wj /\ feq ops64 wj (f0 ops64) = false /\
  df_gradient_j (quad_dense ops64) d (Dataset tX ty) tXw 0 = Ret g /\ finite 53 1024 g /\ nth_error kkt 0 = Some sc /\ finite 53 1024 sc /\ feq ops64 sc (f0 ops64) = false /\
  (forall i, (i < 3)%nat -> Rabs (atR 53 1024 tXw i - nth i (fitR 53 1024 tX tw) 0) <= dl).
Proof.
  pose proof okkkt_true as H. unfold okkkt in H. destruct (df_initialize _ _ _) as [d|]; [|discriminate]. destruct (opt_cond_violation _ _ _ _ _ _ _ _) as [[kkt mx]|] eqn:E1; [|discriminate].
  destruct (df_gradient_j _ _ _ _ _) as [g|] eqn:E2; [|discriminate]. destruct (nth_error kkt 0) as [sc|] eqn:E3; [|discriminate].
  apply andb_true_iff in H as [H H3]. apply andb_true_iff in H as [H1 H2]. apply nz_fin in H1 as [A1 B1].
  destruct (bounded (fun i => Rabs (atR 53 1024 tXw i - nth i (fitR 53 1024 tX tw) 0)) 3) as [dl Hd]. assert (NW : nz (tenth 5) = true) by (vm_compute; reflexivity). apply nz_fin in NW as [A4 B4].
  exists d, kkt, mx, g, sc, dl, (tenth 5). repeat (split; auto).
Qed.
Lemma ex_ta : finite 53 1024 ta /\ 0 <= B2R ta /\ finite 53 1024 (f1 ops64).
Proof.
  split; [vm_compute; reflexivity|]. split; [|vm_compute; reflexivity]. rewrite b2r_sf. replace (B2SF ta) with (SpecFloat.S754_finite false 7205759403792794 (-56)) by (vm_compute; reflexivity).
  unfold SF2R, F2R. cbn [Fnum Fexp cond_Zopp]. apply Rmult_le_pos; [apply IZR_le; lia|apply bpow_ge_0].
Qed.
Lemma ex_nodup : NoDup [0; 1]%nat.
Proof. repeat constructor; simpl; intuition discriminate. Qed.
