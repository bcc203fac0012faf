(** Concrete instances for [PropDup]: three columns, the second equal to the first, the third half of it. *)
From Coq Require Import List ZArith Bool Arith Reals Lra Lia.
From Verif Require Import Ops Arr MUtils MDatasets MDatafits MPenalties MCd MHyper MEstimators XR SpecPen PBase RSum SpecLin SpecData PDataEx SpecSolve PLaws SpecOpt SpecBudget POptEx PSensEx PColsEx.
Import ListNotations.
Open Scope R_scope.

Definition dupX : rmat := fun i j => INR i * match j with 2%nat => 1/2 | _ => 1 end.
Definition once : list nat := [0; 2]%nat.
Definition fit_dup a m := ok (solver_call (dsort xops) (dense_dm xops) (quad_dense xops) (LassoPen a) (solver_max_iterations m (settings (opr 0 0))) (Dataset (xm 3 3 dupX) (T2 (xm 3 1 (fun i _ => oy i)))) (Quad [] [])).
Lemma dup_fit a : 0 <= a -> single_fit (dsort xops) 3 3 dupX oy Squared (LassoPen a) (settings (opr 0 0)) (fit_dup a).
Proof. intros Ha. apply (solve_quad_dense (dsort xops) 3 3 dupX oy (LassoPen a) (settings (opr 0 0))); [right; reflexivity|simpl; lra]. Qed.
Definition fit_once a m := ok (solver_call (dsort xops) (dense_dm xops) (quad_dense xops) (LassoPen a) (solver_max_iterations m (settings kpr)) (Dataset (xm 3 2 (fun i j => dupX i (nth j once 0%nat))) (T2 (xm 3 1 (fun i _ => oy i)))) (Quad [] [])).
Lemma once_fit a : 0 <= a -> single_fit (dsort xops) 3 (length once) (fun i j => dupX i (nth j once 0%nat)) oy Squared (LassoPen a) (settings kpr) (fit_once a).
Proof. intros Ha. apply (solve_quad_dense (dsort xops) 3 2 (fun i j => dupX i (nth j once 0%nat)) oy (LassoPen a) (settings kpr)); [right; reflexivity|simpl; lra]. Qed.
Lemma dup_accepted a : accepted (fit_dup a) /\ accepted (fit_once a).
Proof. split; intros m e; [unfold fit_dup|unfold fit_once]; destruct (solver_call _ _ _ _ _ _ _); discriminate. Qed.
Lemma dup_columns : (forall i, (i < 3)%nat -> dupX i 1%nat = dupX i 0%nat) /\ (forall i, (i < 3)%nat -> dupX i 2%nat = 1/2 * dupX i 0%nat) /\ dupX 2%nat 0%nat = 2 /\
  (Rabs (1/2) * (1/10 + 1/100) < 1/10 - 1/100 /\ 1/100 < 1/10) /\ NoDup once /\ forall q, In q once <-> (q < 3)%nat /\ q <> 1%nat.
Proof.
  unfold dupX. split; [auto|]. split; [intros; ring|]. split; [simpl; ring|]. split; [rewrite Rabs_right; lra|].
  split; [repeat constructor; simpl; intuition lia|]. intros q. simpl. destruct q as [|[|[|q]]]; intuition lia.
Qed.
