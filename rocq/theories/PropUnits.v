(** Property theorems C56 and C57: other units of measurement and repeated samples (see
    [SpecScale]). [fit m] is a call with iteration budget [m]. *)
From Coq Require Import List ZArith Bool Arith Lia Reals.
From Verif Require Import Ops Arr MEstimators XR RSum SpecPen SpecLin SpecSolve SpecOpt SpecOrth SpecScale PLaws POrthEx PScale PScaleFit PScaleEx.
Import ListNotations.
Open Scope R_scope.

(** *** C56: features times [kap], targets times [c], samples repeated [r] times *)
Theorem C56_units srt (VS : valid_sort xops srt) n p r kap c X y X' y' l k k' s s' fit fit' : (1 <= n)%nat -> (1 <= r)%nat -> 0 < kap -> 0 < c -> (l = Logistic -> c = 1) ->
  kap * c = 1 \/ by_comparison xops srt ->
  single_fit srt n p X y l k s fit -> single_fit srt (r * n) p X' y' l k' s' fit' -> accepted fit -> accepted fit' ->
  rescaled_data r n p kap c X y X' y' -> rescaled_pen kap c k k' -> rescaled_settings kap c s s' ->
  forall m, (exists e, fit m = Panic e /\ fit' m = Panic e) \/ (exists w, fit m = Ret (Ok (xv p w)) /\ fit' m = Ret (Ok (xv p (fun j => c / kap * w j)))).
Proof. exact (fun Hn Hr Hk Hc HL BC HF HF' Ha Ha' HD => rescaled_single srt VS n p r Hn Hr kap c Hk Hc BC X y X' y' l k k' s s' fit fit' HF HF' Ha Ha' HD HL). Qed.
Print Assumptions C56_units.
Theorem C56_units_multitask srt (VS : valid_sort xops srt) n p T r kap c X Y X' Y' k k' s s' fit fit' : (1 <= n)%nat -> (1 <= r)%nat -> 0 < kap -> 0 < c ->
  kap * c = 1 \/ by_comparison xops srt ->
  multi_fit srt n p T X Y k s fit -> multi_fit srt (r * n) p T X' Y' k' s' fit' -> accepted fit -> accepted fit' ->
  rescaled_data_mt r n p T kap c X Y X' Y' -> rescaled_pen_mt kap c k k' -> rescaled_settings kap c s s' ->
  forall m, (exists e, fit m = Panic e /\ fit' m = Panic e) \/ (exists W, fit m = Ret (Ok (xm p T W)) /\ fit' m = Ret (Ok (xm p T (fun j t => c / kap * W j t)))).
Proof. exact (fun Hn Hr Hk Hc BC => rescaled_multi srt VS n p r Hn Hr kap c Hk Hc BC T X Y X' Y' k k' s s' fit fit'). Qed.
Print Assumptions C56_units_multitask.
(** MCP and Block MCP: samples twice, features halved, targets tripled *)
Example C56_nonvacuous : single_fit (dsort xops) 2 3 orX ory Squared (McpPen (1/2) 3) (settings orpr) fit_or /\ accepted fit_or /\
  single_fit (dsort xops) (2 * 2) 3 scX scy Squared (McpPen (3/4) 12) (settings scpr) fit_sc /\ accepted fit_sc /\
  multi_fit (dsort xops) 2 3 2 orX orY (BlockMcpPen (1/2) 3) (settings orpr) fit_orT /\ accepted fit_orT /\
  multi_fit (dsort xops) (2 * 2) 3 2 scX scY (BlockMcpPen (3/4) 12) (settings scpr) fit_scT /\ accepted fit_scT /\
  (rescaled_data 2 2 3 (1/2) 3 orX ory scX scy /\ rescaled_data_mt 2 2 3 2 (1/2) 3 orX orY scX scY /\ rescaled_pen (1/2) 3 (McpPen (1/2) 3) (McpPen (3/4) 12) /\
   rescaled_pen_mt (1/2) 3 (BlockMcpPen (1/2) 3) (BlockMcpPen (3/4) 12) /\ rescaled_settings (1/2) 3 (settings orpr) (settings scpr)) /\
  by_comparison xops (dsort xops) /\ valid_sort xops (dsort xops).
Proof.
  exact (conj (proj1 ex_fit_or) (conj (proj2 ex_fit_or) (conj (proj1 ex_fit_sc) (conj (proj2 ex_fit_sc) (conj (proj1 ex_fit_orT) (conj (proj2 ex_fit_orT)
    (conj (proj1 ex_fit_scT) (conj (proj2 ex_fit_scT) (conj sc_units (conj (dsort_by_comparison xops) xr_sort)))))))))).
Qed.
(** not so for the multi-task elastic net: doubling the targets turns the null model into 2/5 *)
Theorem C56_units_multitask_enet_refuted : exists X Y X' Y' k k' s s' fit fit',
  multi_fit (dsort xops) 1 1 1 X Y k s fit /\ multi_fit (dsort xops) (1 * 1) 1 1 X' Y' k' s' fit' /\ accepted fit /\ accepted fit' /\
  rescaled_data_mt 1 1 1 1 1 2 X Y X' Y' /\ rescaled_pen 1 2 (of_norm k) (of_norm k') /\ rescaled_settings 1 2 s s' /\
  fit 1%nat = Ret (Ok (xm 1 1 (fun _ _ => 0))) /\ fit' 1%nat = Ret (Ok (xm 1 1 (fun _ _ => 2/5))).
Proof. exact enet_units_witness. Qed.
Print Assumptions C56_units_multitask_enet_refuted.

(** *** C57: repeating all samples changes nothing *)
Theorem C57_repeated_samples srt (VS : valid_sort xops srt) n p r X y X' y' l k s fit fit' tol : (1 <= n)%nat -> (1 <= r)%nat ->
  single_fit srt n p X y l k s fit -> single_fit srt (r * n) p X' y' l k s fit' -> accepted fit -> accepted fit' -> s_tolerance s = Fin tol ->
  (forall i j, (i < r * n)%nat -> (j < p)%nat -> X' i j = X (i mod n)%nat j) -> (forall i, (i < r * n)%nat -> y' i = y (i mod n)%nat) ->
  forall m, fit' m = fit m.
Proof. exact (repeated_single srt VS n p r X y X' y' l k s fit fit' tol). Qed.
Print Assumptions C57_repeated_samples.
Theorem C57_repeated_samples_multitask srt (VS : valid_sort xops srt) n p T r X Y X' Y' k s fit fit' tol : (1 <= n)%nat -> (1 <= r)%nat ->
  multi_fit srt n p T X Y k s fit -> multi_fit srt (r * n) p T X' Y' k s fit' -> accepted fit -> accepted fit' -> s_tolerance s = Fin tol ->
  (forall i j, (i < r * n)%nat -> (j < p)%nat -> X' i j = X (i mod n)%nat j) -> (forall i t, (i < r * n)%nat -> (t < T)%nat -> Y' i t = Y (i mod n)%nat t) ->
  forall m, fit' m = fit m.
Proof. exact (repeated_multi srt VS n p T r X Y X' Y' k s fit fit' tol). Qed.
Print Assumptions C57_repeated_samples_multitask.
Example C57_nonvacuous : single_fit (dsort xops) 2 3 rpX rpy Logistic (EnetPen (1/2) (1/2)) (settings orpr) (fit_lo 2 rpX rpy) /\ accepted (fit_lo 2 rpX rpy) /\
  single_fit (dsort xops) (3 * 2) 3 rpX rpy Logistic (EnetPen (1/2) (1/2)) (settings orpr) (fit_lo (3 * 2) rpX rpy) /\ accepted (fit_lo (3 * 2) rpX rpy) /\
  s_tolerance (settings orpr) = Fin (1/100) /\ (forall i j, rpX i j = rpX (i mod 2)%nat j) /\ (forall i, rpy i = rpy (i mod 2)%nat) /\ valid_sort xops (dsort xops).
Proof.
  exact (conj (proj1 (ex_fit_lo 2 rpX rpy)) (conj (proj2 (ex_fit_lo 2 rpX rpy)) (conj (proj1 (ex_fit_lo (3 * 2) rpX rpy)) (conj (proj2 (ex_fit_lo (3 * 2) rpX rpy)) (conj eq_refl (conj rp_X (conj rp_y xr_sort))))))).
Qed.
