(** Concrete instances for [PropBudget]. *)
From Coq Require Import List ZArith Bool Arith Reals Lra Lia.
From Verif Require Import Ops Arr MUtils MDatasets MHyper MEstimators XR RSum SpecPen SpecLin SpecData PDataEx SpecSolve PLaws SpecOpt POptEx SpecBudget.
Import ListNotations.
Open Scope R_scope.

Definition big : nat := Z.to_nat 2400000.
Lemma INR_big : INR big = 2400000.
Proof. unfold big. rewrite INR_IZR_INZ, Z2Nat.id by lia. reflexivity. Qed.
Lemma ex_mean : mean_square 3 (entry exE) 0 = 10 / 3 /\ mean_square 3 (entry exE) 1 = 4 / 3 /\ mean_square 3 (entry exE) 2 = 0.
Proof.
  destruct ex_entries as (E0 & E1 & E2 & E3 & E4 & E5 & E6). unfold mean_square. rewrite !Sum_S, !Sum_0, E0, E1, E2, E3, E4, E5, !E6. simpl. repeat split; field.
Qed.
Lemma ex_budget :
  (forall j, (j < 3)%nat -> mean_square 3 (entry exE) j <= 10 / 3) /\
  (forall j, (j < 3)%nat -> nonzero_column 3 (entry exE) j -> 1 <= total_curvature (McpPen (1/10) 3) (curvature Squared 3 (entry exE) j)) /\
  (forall j, (j < 3)%nat -> nonzero_column 3 (entry exE) j -> 4 / 3 <= mean_square 3 (entry exE) j) /\
  4 * loss1 Squared 3 oy (fun _ => 0) * (INR (3 + 1) * (10 / 3) + ridge (McpPen (1/10) 3)) ^ 2 < INR big * (1 * (1 / 100) ^ 2).
Proof.
  destruct ex_mean as (M0 & M1 & M2). split; [|split; [|split]].
  - intros [|[|[|j]]] Hj; [lra|lra|lra|lia].
  - intros j Hj (i & Hi & Hx). change (curvature Squared 3 (entry exE) j) with (mean_square 3 (entry exE) j). cbn [total_curvature].
    destruct j as [|[|[|j]]]; [lra|lra| |lia]. exfalso. apply Hx. apply ex_entries.
  - intros j Hj (i & Hi & Hx). destruct j as [|[|[|j]]]; [lra|lra| |lia]. exfalso. apply Hx. apply ex_entries.
  - rewrite INR_big. cbn [loss1 ridge]. unfold quad_loss, oy. rewrite !Sum_S, Sum_0. simpl. lra.
Qed.
