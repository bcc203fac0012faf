(** Property theorems C108: how much the penalty shrinks the selected coefficients.
    Exact arithmetic; the vocabulary is that of [SpecShrink]. *)
From Coq Require Import List ZArith Bool Arith Reals.
From Verif Require Import Ops Arr MUtils MDatasets MHyper MEstimators XR RSum SpecPen SpecLin SpecData SpecSolve PLaws SpecOpt SpecOracle SpecPath SpecMore SpecShrink PShrink POrthEx PColsEx PIncohEx PShrinkEx PShrinkBlk.
Import ListNotations.
Open Scope R_scope.

(** no model has a training loss much lower: each difference in a coefficient costs the tolerance
    and the slope of the penalty *)
Theorem C108_refit srt (VS : valid_sort xops srt) n p X y l k s fit t : (1 <= n)%nat -> targets_ok l n y -> single_fit srt n p X y l k s fit -> accepted fit -> steps_ok Rlt k l n p X -> patient p 1 s t ->
  settles p (fun w => forall v, loss1 l n y (lin p X w) <= loss1 l n y (lin p X v) + Sum p (fun j => (t + pull k (w j)) * Rabs (w j - v j))) fit.
Proof. exact (c108_refit srt VS n p X y l k s fit t). Qed.
Print Assumptions C108_refit.
(** MCP: if the selected coefficients have at least the size [gamma alpha] there is no shrinkage:
    only the tolerance separates the model from the best one of the same features *)
Theorem C108_mcp_unbiased srt (VS : valid_sort xops srt) n p X y l a g s fit t : (1 <= n)%nat -> targets_ok l n y -> single_fit srt n p X y l (McpPen a g) s fit -> accepted fit -> steps_ok Rlt (McpPen a g) l n p X -> patient p 1 s t ->
  settles p (fun w => (forall j, (j < p)%nat -> w j = 0 \/ a * g <= Rabs (w j)) ->
    forall v, uses_only p w v -> loss1 l n y (lin p X w) <= loss1 l n y (lin p X v) + t * Sum p (fun j => Rabs (w j - v j))) fit.
Proof. exact (c108_mcp srt VS n p X y l a g s fit t). Qed.
Print Assumptions C108_mcp_unbiased.
(** and the shrinkage is real: with the squared loss, a model of the same features has a training
    loss which is lower by a known amount *)
Theorem C108_shrinks srt (VS : valid_sort xops srt) n p X y k s fit t : (1 <= n)%nat -> single_fit srt n p X y Squared k s fit -> accepted fit -> steps_ok Rlt k Squared n p X -> patient p 1 s t ->
  settles p (fun w => let D := Sum p (fun j => (pull k (w j) - t) * Rabs (w j)) in 0 <= D -> 0 < msp n p X w ->
    exists v, uses_only p w v /\ loss1 Squared n y (lin p X v) <= loss1 Squared n y (lin p X w) - D ^ 2 / (2 * msp n p X w)) fit.
Proof. exact (c108_stretch srt VS n p X y k s fit t). Qed.
Print Assumptions C108_shrinks.
(** the multi-task Lasso: the same with the norms of the rows *)
Theorem C108_multitask_lasso srt (VS : valid_sort xops srt) n p T X Y a s fit t : (1 <= n)%nat -> multi_fit srt n p T X Y (MtLassoPen a) s fit -> accepted fit -> patient p T s t ->
  let size (U : rmat) j := norm2 (map (U j) (seq 0 T)) in
  settles_mt p T (fun W => (forall V, quad_loss_mt n T Y (lin_mt p X W) <= quad_loss_mt n T Y (lin_mt p X V) + (t + a) * Sum p (size (fun j u => W j u - V j u))) /\
    let D := (a - t) * Sum p (size W) in 0 <= D -> 0 < msp_mt n p T X W ->
      exists V, (forall j u, (j < p)%nat -> (u < T)%nat -> size W j = 0 -> V j u = 0) /\ quad_loss_mt n T Y (lin_mt p X V) <= quad_loss_mt n T Y (lin_mt p X W) - D ^ 2 / (2 * msp_mt n p T X W)) fit.
Proof. exact (c108_multi srt VS n p T X Y a s fit t). Qed.
Print Assumptions C108_multitask_lasso.
(** Block MCP: no shrinkage if the selected rows have at least the norm [gamma alpha] *)
Theorem C108_block_mcp_unbiased srt (VS : valid_sort xops srt) n p T X Y a g s fit t : (1 <= n)%nat -> multi_fit srt n p T X Y (BlockMcpPen a g) s fit -> accepted fit -> gamma_ok Rlt g Squared n p X -> patient p T s t ->
  let size (U : rmat) j := norm2 (map (U j) (seq 0 T)) in
  eventually_mt p T (fun W => (forall j, (j < p)%nat -> size W j = 0 \/ a * g <= size W j) ->
    forall V, (forall j u, (j < p)%nat -> (u < T)%nat -> size W j = 0 -> V j u = 0) ->
      quad_loss_mt n T Y (lin_mt p X W) <= quad_loss_mt n T Y (lin_mt p X V) + t * Sum p (size (fun j u => W j u - V j u))) fit.
Proof. exact (c108_block srt VS n p T X Y a g s fit t). Qed.
Print Assumptions C108_block_mcp_unbiased.
(** orthogonal columns: MCP returns (2, 3/4, 0), the first coefficient without shrinkage; the Lasso
    shrinks *)
Example C108_nonvacuous : (forall k, pen1_range k -> single_fit (dsort xops) 2 3 orX ory Squared k (settings kpr) (fit_sh k) /\ accepted (fit_sh k)) /\ patient 3 1 (settings kpr) (1/100) /\
  (pen1_range (McpPen (1/2) 3) /\ pen1_range (LassoPen (1/2))) /\ (steps_ok Rlt (McpPen (1/2) 3) Squared 2 3 orX /\ steps_ok Rlt (LassoPen (1/2)) Squared 2 3 orX) /\
  settles 3 (fun w => w 0%nat = 2 /\ w 1%nat = 3/4 /\ pull (McpPen (1/2) 3) (w 0%nat) = 0 /\ pull (McpPen (1/2) 3) (w 1%nat) = 1/4) (fit_sh (McpPen (1/2) 3)) /\
  settles 3 (fun w => 0 < Sum 3 (fun j => (pull (LassoPen (1/2)) (w j) - 1/100) * Rabs (w j)) /\ 0 < msp 2 3 orX w) (fit_sh (LassoPen (1/2))) /\
  settles 3 (fun w => (forall j, (j < 3)%nat -> w j = 0 \/ 1/10 * 3 <= Rabs (w j)) /\ w 0%nat = 2) (fit_sh (McpPen (1/10) 3)) /\
  (multi_fit (dsort xops) 2 2 2 inX inY (MtLassoPen (1/10)) (settings kpr) fit_in_mt /\ patient 2 2 (settings kpr) (1/100) /\
    settles_mt 2 2 (fun W => 0 < (1/10 - 1/100) * Sum 2 (fun j => norm2 (map (W j) (seq 0 2))) /\ 0 < msp_mt 2 2 2 inX W) fit_in_mt).
Proof. exact (conj sh_fit (conj sh_patient (conj sh_range (conj sh_steps (conj sh_mcp (conj sh_lasso (conj sh_unbiased (conj in_fit_mt (conj sh_patient_mt sh_multi))))))))). Qed.
(** orthogonal columns, two tasks: the rows keep their norms *)
Example C108_block_nonvacuous : (multi_fit (dsort xops) 2 3 2 orX orY (BlockMcpPen (1/10) 3) (settings kpr) fit_shB /\ accepted fit_shB /\ gamma_ok Rlt 3 Squared 2 3 orX /\ patient 3 2 (settings kpr) (1/100)) /\
  settles_mt 3 2 (fun W => (forall j, (j < 3)%nat -> norm2 (map (W j) (seq 0 2)) = 0 \/ 1/10 * 3 <= norm2 (map (W j) (seq 0 2))) /\ W 1%nat 0%nat = 3/5) fit_shB.
Proof. exact (conj shB_fit shB_unbiased). Qed.
