(** Property theorems C51, C52, C53 and C54: bounds on returned models, the null level of the
    logistic loss, agreement of fits, and convergence of the multi-task elastic net and Block MCP.
    [fit m] is a call with iteration budget [m] (see [SpecOpt]). *)
From Coq Require Import List ZArith Bool Arith Lia Reals.
From Verif Require Import Ops Arr MDatasets MHyper MEstimators XR RSum SpecPen SpecLin SpecData SpecSolve SpecOpt SpecNull SpecMore PLaws PFitOpt PCert PDataEx POptEx PCertEx PNullEx2 PMore PConvBlock PMoreEx.
Import ListNotations.
Open Scope R_scope.

(** *** C51: training loss and coefficients of every returned model are bounded by the data *)
Theorem C51_bounded srt (VS : valid_sort xops srt) n p X y l k s fit : (1 <= n)%nat -> single_fit srt n p X y l k s fit -> targets_ok l n y -> steps_ok Rle k l n p X ->
  forall m v, fit m = Ret (Ok v) -> exists w, v = xv p w /\
    loss1 l n y (lin p X w) + Sum p (fun j => pen1 k (w j)) <= loss1 l n y (fun _ => 0) /\
    (forall c, l1_weight k c -> loss1 l n y (lin p X w) + c * Sum p (fun j => Rabs (w j)) <= loss1 l n y (fun _ => 0)).
Proof. exact (fun Hn => loss_bound srt VS n p Hn X y l k s fit). Qed.
Print Assumptions C51_bounded.
Theorem C51_bounded_multitask srt (VS : valid_sort xops srt) n p T X Y k s fit : (1 <= n)%nat -> multi_fit srt n p T X Y k s fit -> steps_ok_mt Rle k n p X ->
  forall m v, fit m = Ret (Ok v) -> exists W, v = xm p T W /\
    quad_loss_mt n T Y (lin_mt p X W) + Sum p (fun j => penT k (map (W j) (seq 0 T))) <= Sum n (fun i => Sum T (fun t => Y i t ^ 2)) / (2 * INR n) /\
    (forall c, l1_weight_mt k c -> quad_loss_mt n T Y (lin_mt p X W) + c * Sum p (fun j => norm2 (map (W j) (seq 0 T))) <= Sum n (fun i => Sum T (fun t => Y i t ^ 2)) / (2 * INR n)).
Proof. exact (fun Hn => loss_bound_mt srt VS n p Hn T X Y k s fit). Qed.
Print Assumptions C51_bounded_multitask.
(** the bound in terms of the targets *)
Theorem C51_level l n y : (1 <= n)%nat -> loss1 l n y (fun _ => 0) = match l with Squared => Sum n (fun i => y i ^ 2) / (2 * INR n) | Logistic => ln 2 end.
Proof. exact (loss1_0 l n y). Qed.
Print Assumptions C51_level.
Example C51_nonvacuous : single_fit (dsort xops) 3 3 (entry exE) oy Logistic (EnetPen (1/10) (1/2)) (settings (opr 0 0)) fit_log /\ targets_ok Logistic 3 oy /\
  l1_weight (EnetPen (1/10) (1/2)) (1/10 * (1/2)) /\ settles 3 (stationary (1/100) (loss1 Logistic 3 oy) 3 (entry exE) (pen1 (EnetPen (1/10) (1/2)))) fit_log /\
  multi_fit (dsort xops) 3 3 2 (entry exE) oY (MtLassoPen (1/10)) (settings (opr (1/10) 3)) fit_mtl /\
  settles_mt 3 2 (stationary_mt (1/100) (quad_loss_mt 3 2 oY) 3 2 (entry exE) (penT (MtLassoPen (1/10)))) fit_mtl.
Proof. exact (conj ex_fit_log (conj (proj1 (proj2 ex_ok)) (conj eq_refl (conj ex_log_settles (conj ex_fit_mtl ex_mtl_settles))))). Qed.

(** *** C52: logistic fits return the null model exactly from half the reported [alpha_max] on *)
Theorem C52_zero_optimal n p X y k am : (1 <= n)%nat -> reported_alpha_max n p X y am -> pen1_range k ->
  (stationary 0 (loss1 Logistic n y) p X (pen1 k) (fun _ => 0) <-> am / 2 <= slope k).
Proof. exact (zero_iff_log0 n p X y k am). Qed.
Print Assumptions C52_zero_optimal.
Theorem C52_null_model srt (VS : valid_sort xops srt) n p X y k am s fit tol : (1 <= n)%nat -> reported_alpha_max n p X y am -> single_fit srt n p X y Logistic k s fit ->
  s_tolerance s = Fin tol -> 0 <= tol -> accepted fit -> am / 2 <= slope k + tol -> forall m, fit m = Ret (Ok (xv p (fun _ => 0))).
Proof. exact (fun Hn => log_null srt VS n p Hn X y k am s fit tol). Qed.
Print Assumptions C52_null_model.
Theorem C52_sharp srt (VS : valid_sort xops srt) n p X y k am s fit tol : (1 <= n)%nat -> reported_alpha_max n p X y am -> single_fit srt n p X y Logistic k s fit ->
  s_tolerance s = Fin tol -> 0 <= tol -> targets_ok Logistic n y -> steps_ok Rlt k Logistic n p X -> (1 <= s_ws_start_size s)%nat -> (1 <= s_max_epochs s)%nat ->
  slope k + tol < am / 2 -> forall m v, (1 <= m)%nat -> fit m = Ret (Ok v) ->
  exists w, v = xv p w /\ objective (loss1 Logistic n y) p X (pen1 k) w < objective (loss1 Logistic n y) p X (pen1 k) (fun _ => 0) /\ exists j, (j < p)%nat /\ w j <> 0.
Proof. exact (fun Hn => log_sharp srt VS n p Hn X y k am s fit tol). Qed.
Print Assumptions C52_sharp.
Example C52_nonvacuous : reported_alpha_max 3 3 (entry exE) oy (2/3) /\
  (single_fit (dsort xops) 3 3 (entry exE) oy Logistic (EnetPen 1 (1/2)) (settings (opr 0 0)) fit_logn /\ accepted fit_logn /\ 2/3/2 <= slope (EnetPen 1 (1/2)) + 1/100) /\
  single_fit (dsort xops) 3 3 (entry exE) oy Logistic (EnetPen (1/10) (1/2)) (settings (opr 0 0)) fit_log /\
  (slope (EnetPen (1/10) (1/2)) + 1/100 < 2/3/2 /\ steps_ok Rlt (EnetPen (1/10) (1/2)) Logistic 3 3 (entry exE)) /\ targets_ok Logistic 3 oy /\
  settles 3 (stationary (1/100) (loss1 Logistic 3 oy) 3 (entry exE) (pen1 (EnetPen (1/10) (1/2)))) fit_log.
Proof. exact (conj am_ex (conj ex_fit_logn (conj ex_fit_log (conj ex_log_sharp (conj (proj1 (proj2 ex_ok)) ex_log_settles))))). Qed.

(** *** C53: models meeting the stopping criterion agree, whatever the settings *)
(** predictions on the training data, squared loss *)
Theorem C53_predictions srt srt' (VS : valid_sort xops srt) (VS' : valid_sort xops srt') n p X y k s s' fit fit' c e1 e2 : (1 <= n)%nat ->
  single_fit srt n p X y Squared k s fit -> single_fit srt' n p X y Squared k s' fit' -> l1_weight k c -> 0 < c -> 0 <= e1 + e2 ->
  forall m m' w v, fit m = Ret (Ok (xv p w)) -> fit' m' = Ret (Ok (xv p v)) ->
  stationary e1 (loss1 Squared n y) p X (pen1 k) w -> stationary e2 (loss1 Squared n y) p X (pen1 k) v ->
  Sum n (fun i => (lin p X w i - lin p X v i) ^ 2) / INR n <= (e1 + e2) * (2 * loss1 Squared n y (fun _ => 0) / c).
Proof. exact (fun Hn HF HF' => fits_agree srt srt' VS VS' n p X y Squared k s s' fit fit' c e1 e2 Hn HF HF' I). Qed.
Print Assumptions C53_predictions.
Theorem C53_predictions_multitask srt srt' (VS : valid_sort xops srt) (VS' : valid_sort xops srt') n p T X Y k s s' fit fit' c e1 e2 : (1 <= n)%nat ->
  multi_fit srt n p T X Y k s fit -> multi_fit srt' n p T X Y k s' fit' -> l1_weight_mt k c -> 0 < c -> 0 <= e1 + e2 ->
  forall m m' W V, fit m = Ret (Ok (xm p T W)) -> fit' m' = Ret (Ok (xm p T V)) ->
  stationary_mt e1 (quad_loss_mt n T Y) p T X (penT k) W -> stationary_mt e2 (quad_loss_mt n T Y) p T X (penT k) V ->
  Sum n (fun i => Sum T (fun t => (lin_mt p X W i t - lin_mt p X V i t) ^ 2)) / INR n <= (e1 + e2) * (2 * (Sum n (fun i => Sum T (fun t => Y i t ^ 2)) / (2 * INR n)) / c).
Proof. exact (fits_agree_mt srt srt' VS VS' n p T X Y k s s' fit fit' c e1 e2). Qed.
Print Assumptions C53_predictions_multitask.
(** coefficients of elastic nets, both losses *)
Theorem C53_elastic_net l a r n p X y e1 e2 w v : (1 <= n)%nat -> 0 < a -> 0 <= r < 1 -> 0 <= e1 + e2 ->
  stationary e1 (loss1 l n y) p X (pen1 (EnetPen a r)) w -> stationary e2 (loss1 l n y) p X (pen1 (EnetPen a r)) v ->
  Sum p (fun j => (w j - v j) ^ 2) <= INR p * ((e1 + e2) / (a * (1 - r))) ^ 2.
Proof. exact (enet_agree l a r n p X y e1 e2 w v). Qed.
Print Assumptions C53_elastic_net.
Theorem C53_elastic_net_multitask a r n p T X Y e1 e2 W V : (1 <= n)%nat -> 0 < a -> 0 < r < 1 -> 0 <= e1 + e2 ->
  stationary_mt e1 (quad_loss_mt n T Y) p T X (penT (MtEnetPen a r)) W -> stationary_mt e2 (quad_loss_mt n T Y) p T X (penT (MtEnetPen a r)) V ->
  Sum p (fun j => Sum T (fun t => (W j t - V j t) ^ 2)) <= INR p * ((e1 + e2) / (a * (1 - r))) ^ 2.
Proof. exact (enet_agree_mt a r n p T X Y e1 e2 W V). Qed.
Print Assumptions C53_elastic_net_multitask.
(** with C27: two settings for the same elastic-net problem *)
Theorem C53_settings_do_not_matter srt srt' (VS : valid_sort xops srt) (VS' : valid_sort xops srt') n p X y l a r s s' fit fit' t1 t2 : (1 <= n)%nat -> 0 < a -> 0 <= r < 1 -> targets_ok l n y ->
  single_fit srt n p X y l (EnetPen a r) s fit -> single_fit srt' n p X y l (EnetPen a r) s' fit' -> accepted fit -> accepted fit' ->
  s_tolerance s = Fin t1 -> s_tolerance s' = Fin t2 -> 0 < t1 -> 0 < t2 ->
  (forall q, In q [s; s'] -> (1 <= s_ws_start_size q)%nat /\ (1 <= s_max_epochs q)%nat /\ calm_schedule (s_use_acceleration q) (s_K q) (s_max_epochs q) /\
     accel_safe (s_use_acceleration q) (s_K q) (Nat.min (s_ws_start_size q) p) (s_max_epochs q)) ->
  exists N w v, (forall m, (N <= m)%nat -> fit m = Ret (Ok (xv p w)) /\ fit' m = Ret (Ok (xv p v))) /\
    Sum p (fun j => (w j - v j) ^ 2) <= INR p * ((t1 + t2) / (a * (1 - r))) ^ 2.
Proof. exact (settle_agree srt srt' VS VS' n p X y l a r s s' fit fit' t1 t2). Qed.
Print Assumptions C53_settings_do_not_matter.
(** dense with extrapolation and sparse without, different tolerances and working sets *)
Example C53_nonvacuous : single_fit (dsort xops) 3 3 (entry exE) oy Logistic (EnetPen (1/10) (1/2)) (settings (opr 0 0)) fit_log /\ accepted fit_log /\
  (single_fit (dsort xops) 3 3 (entry exE) oy Logistic (EnetPen (1/10) (1/2)) (settings mpr) fit_logs /\ accepted fit_logs) /\
  s_tolerance (settings (opr 0 0)) = Fin (1/100) /\ s_tolerance (settings mpr) = Fin (1/1000) /\ targets_ok Logistic 3 oy /\
  (forall q, In q [settings (opr 0 0); settings mpr] -> (1 <= s_ws_start_size q)%nat /\ (1 <= s_max_epochs q)%nat /\ calm_schedule (s_use_acceleration q) (s_K q) (s_max_epochs q) /\
     accel_safe (s_use_acceleration q) (s_K q) (Nat.min (s_ws_start_size q) 3) (s_max_epochs q)) /\
  (exists m w, (forall m', (m <= m')%nat -> fit_mcp m' = Ret (Ok (xv 3 w))) /\ stationary (1/100) (loss1 Squared 3 oy) 3 (entry exE) (pen1 (McpPen (1/10) 3)) w /\ exists j, (j < 3)%nat /\ w j <> 0) /\
  settles_mt 3 2 (stationary_mt (1/100) (quad_loss_mt 3 2 oY) 3 2 (entry exE) (penT (MtLassoPen (1/10)))) fit_mtl.
Proof.
  exact (conj ex_fit_log (conj (proj1 (proj2 ex_accepted)) (conj ex_fit_logs (conj eq_refl (conj eq_refl (conj (proj1 (proj2 ex_ok)) (conj ex_log_pair (conj ex_mcp_result ex_mtl_settles)))))))).
Qed.

(** *** C54: long runs of the multi-task elastic net and of Block MCP *)
(** weight of the row norm at most one: the fits settle where their criterion holds *)
Theorem C54_enet_settles srt (VS : valid_sort xops srt) n p T X Y a r s fit tol : (1 <= n)%nat -> multi_fit srt n p T X Y (MtEnetPen a r) s fit ->
  accepted fit -> s_tolerance s = Fin tol -> 0 < tol -> (1 <= s_ws_start_size s)%nat -> (1 <= s_max_epochs s)%nat ->
  calm_schedule (s_use_acceleration s) (s_K s) (s_max_epochs s) ->
  accel_safe (s_use_acceleration s) (s_K s) (Nat.min (s_ws_start_size s) p * T) (s_max_epochs s) ->
  a * r <= 1 -> settles_mt p T (fun W => enet_mt_criterion tol (quad_loss_mt n T Y) p T X (penT (MtEnetPen a r)) W (a * r)) fit.
Proof. exact (fun Hn HF => enet_settles srt VS n p Hn T X Y a r s fit HF tol). Qed.
Print Assumptions C54_enet_settles.
(** at least one: every long run is optimal to the tolerance *)
Theorem C54_enet_optimal srt (VS : valid_sort xops srt) n p T X Y a r s fit tol : (1 <= n)%nat -> multi_fit srt n p T X Y (MtEnetPen a r) s fit ->
  accepted fit -> s_tolerance s = Fin tol -> 0 < tol -> (1 <= s_ws_start_size s)%nat -> (1 <= s_max_epochs s)%nat ->
  calm_schedule (s_use_acceleration s) (s_K s) (s_max_epochs s) ->
  accel_safe (s_use_acceleration s) (s_K s) (Nat.min (s_ws_start_size s) p * T) (s_max_epochs s) ->
  1 <= a * r -> eventually_mt p T (stationary_mt tol (quad_loss_mt n T Y) p T X (penT (MtEnetPen a r))) fit.
Proof. exact (fun Hn HF => enet_eventually srt VS n p Hn T X Y a r s fit HF tol). Qed.
Print Assumptions C54_enet_optimal.
(** but then the criterion may never be met, even at the optimum: the whole budget is spent *)
Theorem C54_enet_criterion_met_refuted : exists (srt : list xr -> list nat) n p T X Y a r s fit tol, valid_sort xops srt /\ (1 <= n)%nat /\ multi_fit srt n p T X Y (MtEnetPen a r) s fit /\ accepted fit /\
  s_tolerance s = Fin tol /\ 0 < tol /\ (1 <= s_ws_start_size s)%nat /\ (1 <= s_max_epochs s)%nat /\ s_use_acceleration s = false /\
  (forall m, fit m = Ret (Ok (xm p T (fun _ _ => 0)))) /\ stationary_mt 0 (quad_loss_mt n T Y) p T X (penT (MtEnetPen a r)) (fun _ _ => 0) /\
  ~ enet_mt_criterion tol (quad_loss_mt n T Y) p T X (penT (MtEnetPen a r)) (fun _ _ => 0) (a * r).
Proof. exact never_met. Qed.
Print Assumptions C54_enet_criterion_met_refuted.
Theorem C54_block_mcp srt (VS : valid_sort xops srt) n p T X Y a gm s fit tol : (1 <= n)%nat -> multi_fit srt n p T X Y (BlockMcpPen a gm) s fit -> gamma_ok Rlt gm Squared n p X ->
  accepted fit -> s_tolerance s = Fin tol -> 0 < tol -> (1 <= s_ws_start_size s)%nat -> (1 <= s_max_epochs s)%nat ->
  calm_schedule (s_use_acceleration s) (s_K s) (s_max_epochs s) ->
  accel_safe (s_use_acceleration s) (s_K s) (Nat.min (s_ws_start_size s) p * T) (s_max_epochs s) ->
  settles_mt p T (fun W => block_mcp_criterion tol (quad_loss_mt n T Y) p T X (penT (BlockMcpPen a gm)) W a gm) fit \/
  eventually_mt p T (stationary_mt tol (quad_loss_mt n T Y) p T X (penT (BlockMcpPen a gm))) fit.
Proof. exact (fun Hn HF HS => bmcp_eventually srt VS n p Hn T X Y a gm s fit HF HS tol). Qed.
Print Assumptions C54_block_mcp.
Example C54_nonvacuous : (forall a, 0 < a -> multi_fit (dsort xops) 3 3 2 (entry exE) oY (MtEnetPen a (1/2)) (settings (opr a (1/2))) (fit_mte a) /\ accepted (fit_mte a)) /\
  multi_fit (dsort xops) 3 3 2 (entry exE) oY (BlockMcpPen (1/10) 3) (settings (opr 0 0)) fit_mtm /\ (accepted fit_mtm /\ gamma_ok Rlt 3 Squared 3 3 (entry exE)) /\
  (forall a s, s_tolerance (settings (opr a s)) = Fin (1/100) /\ (1 <= s_ws_start_size (settings (opr a s)))%nat /\ (1 <= s_max_epochs (settings (opr a s)))%nat /\
     calm_schedule (s_use_acceleration (settings (opr a s))) (s_K (settings (opr a s))) (s_max_epochs (settings (opr a s))) /\
     accel_safe (s_use_acceleration (settings (opr a s))) (s_K (settings (opr a s))) (Nat.min (s_ws_start_size (settings (opr a s))) 3) (s_max_epochs (settings (opr a s))) /\
     accel_safe (s_use_acceleration (settings (opr a s))) (s_K (settings (opr a s))) (Nat.min (s_ws_start_size (settings (opr a s))) 3 * 2) (s_max_epochs (settings (opr a s)))).
Proof. exact (conj ex_fit_mte (conj ex_fit_mtm (conj ex_mtm_ok ex_settings))). Qed.
