(** Concrete datasets for PropShape.v. *)
From Coq Require Import List ZArith Bool Arith Lia.
From Verif Require Import Ops Arr MUtils MDatasets MHyper MEstimators IEEE SpecSolve SpecShape PLaws PRunsEx PMismatch.
Import ListNotations.
Local Open Scope nat_scope.

Definition my : targets f64 := T1 (map f64_of [1; 2]%Z).
Definition my4 : targets f64 := T1 (map f64_of [3; -1; 4; 1]%Z).
Lemma mismatch_ex : target1_wf 2 my /\ target_wf 2 1 my /\ mnr rX <> 2 /\ mwf rX /\ mnc rX = 2 /\ (exists c, lasso_check_ref ops64 rpr = Ok c) /\
  entry_outside 2 rC /\ csc_wf 3 2 rC.
Proof.
  split; [reflexivity|]. split; [split; reflexivity|]. split; [discriminate|]. split; [apply rX_shaped|]. split; [reflexivity|]. split.
  { assert (E : match lasso_check_ref ops64 rpr with Ok _ => true | Err _ => false end = true) by (vm_compute; reflexivity). destruct lasso_check_ref; [eauto|discriminate]. }
  split; [|apply rC_wf].
  exists 0, 0%Z, 2%Z, 1%Z. repeat split; try lia. intros i _ E. cbn in E. injection E as <-. lia.
Qed.
Lemma surplus_accepted : exists n p (c : csc f64) t pr w, csc_wf n p c /\ n < n_samples t /\ target1_wf (n_samples t) t /\
  fit_unchecked (lasso_check_ref ops64) (lasso_fit_sparse ops64 srt64) pr (Dataset c t) = Ret (Ok w) /\ nonzero ops64 w 0.
Proof.
  assert (E : match fit_unchecked (lasso_check_ref ops64) (lasso_fit_sparse ops64 srt64) rpr (Dataset rC my4) with
              | Ret (Ok (x :: _)) => negb (feq ops64 x (f0 ops64)) | _ => false end = true) by (vm_compute; reflexivity).
  exists 3, 2, rC, my4, rpr. destruct fit_unchecked as [[[|x w]|]|]; try discriminate. exists (x :: w).
  split; [apply rC_wf|]. split; [cbn; lia|]. split; [reflexivity|]. split; auto. exists x. split; auto. apply negb_true_iff. auto.
Qed.
