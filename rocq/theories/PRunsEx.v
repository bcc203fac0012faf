(** Concrete double-precision runs for PropRuns.v. *)
From Coq Require Import List ZArith Bool Arith Lia Reals.
From Verif Require Import Ops Arr MUtils MDatasets MDatafits MDatafitsMT MPenalties MBlockPenalties MCd MBcd MHyper MEstimators XR IEEE PBase SpecSolve PStruct PLaws.
Import ListNotations.
Local Open Scope nat_scope.

Definition f64_of (z : Z) : f64 := flit ops64 z 1.
Definition srt64 : list f64 -> list nat := dsort ops64.
Lemma srt64_ok : valid_sort ops64 srt64.
Proof. apply (ieee_sort 53 1024). Qed.
Lemma ops64_laws : float_laws ops64.
Proof. apply (ieee_laws 53 1024). Qed.

(** 3 samples, 2 features *)
Definition rX : mat f64 := Mat 3 2 (map (map f64_of) [[1; 2]; [0; 1]; [3; -1]]%Z).
Definition ry : targets f64 := T1 (map f64_of [3; -1; 4]%Z).
(** the same matrix in compressed-column form *)
Definition rC : csc f64 := Csc (map f64_of [1; 3; 2; 1; -1]%Z) [0; 2; 0; 1; 2]%Z [0; 2; 5]%Z.
Lemma rX_shaped : shaped 3 2 rX.
Proof. unfold shaped. simpl. repeat split; auto. simpl. repeat constructor. Qed.
Lemma rC_wf : csc_wf 3 2 rC.
Proof. unfold csc_wf. simpl. repeat split; auto; repeat constructor; lia. Qed.
Lemma ry_wf : target1_wf 3 ry.
Proof. reflexivity. Qed.
Lemma rC_dense_agree : mrows rX = map (map f64_of) [[1; 2]; [0; 1]; [3; -1]]%Z.
Proof. reflexivity. Qed.

(** default Lasso parameters: out-of-bounds panic on two features *)
Lemma run_panics : fit_unchecked (lasso_check_ref ops64) (lasso_fit_dense ops64 srt64) (lasso_params_new ops64) (Dataset rX ry) = Panic POob.
Proof. vm_compute. reflexivity. Qed.
(** the same data with [K = 2] return a nonzero model *)
Definition rpr : params f64 := Params (f1 ops64) (f0 ops64) 2 25 10 (flit ops64 1 1000000) 2 true false.
Lemma run_returns : exists w, fit_unchecked (lasso_check_ref ops64) (lasso_fit_dense ops64 srt64) rpr (Dataset rX ry) = Ret (Ok w) /\ nonzero ops64 w 0.
Proof.
  assert (E : match fit_unchecked (lasso_check_ref ops64) (lasso_fit_dense ops64 srt64) rpr (Dataset rX ry) with
              | Ret (Ok (x :: _)) => negb (feq ops64 x (f0 ops64)) | _ => false end = true) by (vm_compute; reflexivity).
  destruct fit_unchecked as [[[|x w]|]|]; try discriminate. exists (x :: w). split; auto. exists x. split; auto. apply negb_true_iff. auto.
Qed.
Lemma ex_ws : construct_ws_from_kkt ops64 srt64 (map f64_of [1; 3; 0; 2]%Z) (map f64_of [0; 0; 5; 0]%Z) 1 = Ret ([2; 1]%nat, 2%nat).
Proof. vm_compute. reflexivity. Qed.
(** with infinite scores on zero coefficients, a feature with a nonzero coefficient is left out *)
Lemma ex_ws_inf : construct_ws_from_kkt ops64 srt64 [finf ops64; finf ops64; f64_of 0] (map f64_of [0; 0; 1]%Z) 1 = Ret ([0; 1]%nat, 2%nat).
Proof. vm_compute. reflexivity. Qed.
Lemma ws_inf_refuted : exists kkt w ws0 ws sz j, length kkt = length w /\ ws0 <= length w /\ existsb (fisnan ops64) kkt = false /\
  construct_ws_from_kkt ops64 srt64 kkt w ws0 = Ret (ws, sz) /\ nonzero ops64 w j /\ ~ In j ws.
Proof.
  exists [finf ops64; finf ops64; f64_of 0], (map f64_of [0; 0; 1]%Z), 1, [0; 1]%nat, 2, 2. split; [reflexivity|]. split; [simpl; lia|].
  split; [vm_compute; reflexivity|]. split; [exact ex_ws_inf|]. split.
  - eexists. split; reflexivity.
  - simpl. lia.
Qed.
