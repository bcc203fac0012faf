(** Vocabulary for statements about what a fit returns: the documented optimisation problem of
    every estimator, optimality violations, and which calls solve which problem. *)
From Coq Require Import List ZArith Bool Arith Reals.
From Verif Require Import Ops Arr MUtils MDatasets MDatafits MDatafitsMT MPenalties MBlockPenalties MCd MBcd MHyper MEstimators XR SpecPen RSum SpecLin SpecData.
Import ListNotations.
Open Scope R_scope.

(** *** documented problems *)
Inductive single_loss := Squared | Logistic.
Definition loss1 (l : single_loss) (n : nat) (y : nat -> R) : (nat -> R) -> R :=
  match l with Squared => quad_loss n y | Logistic => logistic_loss n y end.
Inductive single_pen := LassoPen (alpha : R) | EnetPen (alpha l1_ratio : R) | McpPen (alpha gamma : R).
Definition pen1 (k : single_pen) : R -> R :=
  match k with LassoPen a => abs_pen a | EnetPen a r => enet_pen a r | McpPen a g => mcp_pen a g end.
Definition pen1_range (k : single_pen) : Prop :=
  match k with LassoPen a => 0 <= a | EnetPen a r => 0 <= a /\ 0 <= r <= 1 | McpPen a g => 0 <= a /\ 0 < g end.
Definition objective (loss : (nat -> R) -> R) (p : nat) (X : rmat) (pen : R -> R) (w : nat -> R) : R :=
  loss (lin p X w) + Sum p (fun j => pen (w j)).

Inductive multi_pen := MtLassoPen (alpha : R) | MtEnetPen (alpha l1_ratio : R) | BlockMcpPen (alpha gamma : R).
Definition penT (k : multi_pen) (v : list R) : R :=
  match k with MtLassoPen a => abs_pen a (norm2 v) | MtEnetPen a r => enet_pen a r (norm2 v) | BlockMcpPen a g => mcp_pen a g (norm2 v) end.
(** [0 < a], [0 < a * r]: otherwise block soft thresholding divides zero by zero *)
Definition penT_range (k : multi_pen) : Prop :=
  match k with MtLassoPen a => 0 < a | MtEnetPen a r => 0 <= a /\ 0 <= r <= 1 /\ 0 < a * r | BlockMcpPen a g => 0 <= a /\ 0 < g end.
Definition objective_mt (loss : rmat -> R) (p T : nat) (X : rmat) (pen : list R -> R) (W : rmat) : R :=
  loss (lin_mt p X W) + Sum p (fun j => pen (map (W j) (seq 0 T))).

(** *** optimality violation: distance of minus the derivative of the loss to the subdifferential *)
Definition violation (loss : (nat -> R) -> R) (p : nat) (X : rmat) (pen : R -> R) (w : nat -> R) (j : nat) (d : R) : Prop :=
  exists g, derivable_pt_lim (fun s => loss (lin p X (set1 w j s))) (w j) g /\ is_dist (subgrad pen (w j)) (- g) d.
Definition stationary (eps : R) (loss : (nat -> R) -> R) (p : nat) (X : rmat) (pen : R -> R) (w : nat -> R) : Prop :=
  forall j, (j < p)%nat -> exists d, violation loss p X pen w j d /\ d <= eps.
Definition violation_mt (loss : rmat -> R) (p T : nat) (X : rmat) (pen : list R -> R) (W : rmat) (j : nat) (d : R) : Prop :=
  exists g : nat -> R, (forall t, (t < T)%nat -> derivable_pt_lim (fun s => loss (lin_mt p X (set2 W j t s))) (W j t) (g t)) /\
    is_vdist (vsubgrad T pen (map (W j) (seq 0 T))) (map (fun t => - g t) (seq 0 T)) d.
Definition stationary_mt (eps : R) (loss : rmat -> R) (p T : nat) (X : rmat) (pen : list R -> R) (W : rmat) : Prop :=
  forall j, (j < p)%nat -> exists d, violation_mt loss p T X pen W j d /\ d <= eps.

(** *** conditions on data *)
Definition targets_ok (l : single_loss) (n : nat) (y : nat -> R) : Prop :=
  match l with Squared => True | Logistic => forall i, (i < n)%nat -> Rabs (y i) <= 1 end.
(** largest second derivative of the loss in coefficient [j] *)
Definition curvature (l : single_loss) (n : nat) (X : rmat) (j : nat) : R :=
  match l with Squared => Sum n (fun i => X i j ^ 2) / INR n | Logistic => Sum n (fun i => X i j ^ 2) / (4 * INR n) end.
(** for MCP: [gamma] is at least (resp. above) the step size of every column which is not zero *)
Definition gamma_ok (cmp : R -> R -> Prop) (g : R) (l : single_loss) (n p : nat) (X : rmat) : Prop :=
  forall j, (j < p)%nat -> (exists i, (i < n)%nat /\ X i j <> 0) -> cmp 1 (g * curvature l n X j).
Definition steps_ok (cmp : R -> R -> Prop) (k : single_pen) (l : single_loss) (n p : nat) (X : rmat) : Prop :=
  match k with McpPen _ g => gamma_ok cmp g l n p X | _ => True end.
Definition steps_ok_mt (cmp : R -> R -> Prop) (k : multi_pen) (n p : nat) (X : rmat) : Prop :=
  match k with BlockMcpPen _ g => gamma_ok cmp g Squared n p X | _ => True end.

(** *** which calls solve which problem.  [fit m] is the call with iteration budget [m]. *)
Definition settings (pr : params xr) : solver xr :=
  Solver (p_ws_start_size pr) (p_max_iterations pr) (p_max_epochs pr) (p_tolerance pr) (p_K pr) (p_use_acceleration pr) (p_verbose pr).
Definition carries (k : single_pen) (pr : params xr) : Prop :=
  match k with
  | LassoPen a => p_alpha pr = Fin a
  | EnetPen a r => p_alpha pr = Fin a /\ p_shape pr = Fin r
  | McpPen a g => p_alpha pr = Fin a /\ p_shape pr = Fin g
  end.
Definition carries_mt (k : multi_pen) (pr : params xr) : Prop :=
  match k with
  | MtLassoPen a => p_alpha pr = Fin a
  | MtEnetPen a r => p_alpha pr = Fin a /\ p_shape pr = Fin r
  | BlockMcpPen a g => p_alpha pr = Fin a /\ p_shape pr = Fin g
  end.

Section Calls.
Variable srt : list xr -> list nat.
Definition estimator_dense (k : single_pen) (pr : params xr) (ds : dataset (mat xr) xr) :=
  match k with
  | LassoPen _ => fit_unchecked (lasso_check_ref xops) (lasso_fit_dense xops srt) pr ds
  | EnetPen _ _ => fit_unchecked (elastic_net_check_ref xops) (elastic_net_fit_dense xops srt) pr ds
  | McpPen _ _ => fit_unchecked (mcp_check_ref xops) (mcp_fit_dense xops srt) pr ds
  end.
Definition estimator_sparse (k : single_pen) (pr : params xr) (ds : dataset (csc xr) xr) :=
  match k with
  | LassoPen _ => fit_unchecked (lasso_check_ref xops) (lasso_fit_sparse xops srt) pr ds
  | EnetPen _ _ => fit_unchecked (elastic_net_check_ref xops) (elastic_net_fit_sparse xops srt) pr ds
  | McpPen _ _ => fit_unchecked (mcp_check_ref xops) (mcp_fit_sparse xops srt) pr ds
  end.
Definition ok {A} (r : res A) : res (result A (estimator_error xr)) := bind r (fun a => Ret (Ok a)).
Definition solver_call {DM D} (dm : DesignMatrix xr DM) (df : Datafit xr DM D) (k : single_pen) (s : solver xr) (ds : dataset DM xr) (d : D) :=
  match k with
  | LassoPen a => solve xops srt dm df (l1_penalty xops) s ds d (L1 (Fin a))
  | EnetPen a r => solve xops srt dm df (l1l2_penalty xops) s ds d (L1PlusL2 (Fin a) (Fin r))
  | McpPen a g => solve xops srt dm df (mcp_penalty xops) s ds d (MCP (Fin a) (Fin g))
  end.
(** [X], [y]: the data; [l], [k]: the problem; [s]: the settings *)
Inductive single_fit (n p : nat) : rmat -> (nat -> R) -> single_loss -> single_pen -> solver xr ->
    (nat -> res (result (list xr) (estimator_error xr))) -> Prop :=
| fit_dense X y k pr t : single_target_of n y t -> carries k pr ->
    single_fit n p X y Squared k (settings pr) (fun m => estimator_dense k (set_max_iterations m pr) (Dataset (xm n p X) t))
| fit_sparse E c y k pr t : csc_of n p E c -> no_repeats p E -> single_target_of n y t -> carries k pr ->
    single_fit n p (entry E) y Squared k (settings pr) (fun m => estimator_sparse k (set_max_iterations m pr) (Dataset c t))
| solve_quad_dense X y k s d t : single_target_of n y t -> pen1_range k ->
    single_fit n p X y Squared k s (fun m => ok (solver_call (dense_dm xops) (quad_dense xops) k (solver_max_iterations m s) (Dataset (xm n p X) t) d))
| solve_quad_sparse E c y k s d t : csc_of n p E c -> no_repeats p E -> single_target_of n y t -> pen1_range k ->
    single_fit n p (entry E) y Squared k s (fun m => ok (solver_call (sparse_dm xops) (quad_sparse xops) k (solver_max_iterations m s) (Dataset c t) d))
| solve_log_dense X y k s d t : single_target_of n y t -> pen1_range k ->
    single_fit n p X y Logistic k s (fun m => ok (solver_call (dense_dm xops) (log_dense xops) k (solver_max_iterations m s) (Dataset (xm n p X) t) d))
| solve_log_sparse E c y k s d t : csc_of n p E c -> no_repeats p E -> single_target_of n y t -> pen1_range k ->
    single_fit n p (entry E) y Logistic k s (fun m => ok (solver_call (sparse_dm xops) (log_sparse xops) k (solver_max_iterations m s) (Dataset c t) d)).

Definition mt_estimator_dense (k : multi_pen) (pr : params xr) (ds : dataset (mat xr) xr) :=
  match k with
  | MtLassoPen _ => fit_unchecked (mt_lasso_check_ref xops) (mt_lasso_fit_dense xops srt) pr ds
  | MtEnetPen _ _ => fit_unchecked (mt_elastic_net_check_ref xops) (mt_elastic_net_fit_dense xops srt) pr ds
  | BlockMcpPen _ _ => fit_unchecked (block_mcp_check_ref xops) (block_mcp_fit_dense xops srt) pr ds
  end.
Definition mt_estimator_sparse (k : multi_pen) (pr : params xr) (ds : dataset (csc xr) xr) :=
  match k with
  | MtLassoPen _ => fit_unchecked (mt_lasso_check_ref xops) (mt_lasso_fit_sparse xops srt) pr ds
  | MtEnetPen _ _ => fit_unchecked (mt_elastic_net_check_ref xops) (mt_elastic_net_fit_sparse xops srt) pr ds
  | BlockMcpPen _ _ => fit_unchecked (block_mcp_check_ref xops) (block_mcp_fit_sparse xops srt) pr ds
  end.
Definition mt_solver_call {DM D} (dm : DesignMatrix xr DM) (df : DatafitMT xr DM D) (k : multi_pen) (s : solver xr) (ds : dataset DM xr) (d : D) :=
  match k with
  | MtLassoPen a => solve_multi_task xops srt dm df (l21_penalty xops) s ds d (L21 (Fin a))
  | MtEnetPen a r => solve_multi_task xops srt dm df (bl1l2_penalty xops) s ds d (BlockL1PlusL2 (Fin a) (Fin r))
  | BlockMcpPen a g => solve_multi_task xops srt dm df (bmcp_penalty xops) s ds d (BlockMCP (Fin a) (Fin g))
  end.
Inductive multi_fit (n p T : nat) : rmat -> rmat -> multi_pen -> solver xr ->
    (nat -> res (result (mat xr) (estimator_error xr))) -> Prop :=
| mt_fit_dense X Y k pr t : multi_target_of n T Y t -> carries_mt k pr -> penT_range k ->
    multi_fit n p T X Y k (settings pr) (fun m => mt_estimator_dense k (set_max_iterations m pr) (Dataset (xm n p X) t))
| mt_fit_sparse E c Y k pr t : csc_of n p E c -> no_repeats p E -> multi_target_of n T Y t -> carries_mt k pr -> penT_range k ->
    multi_fit n p T (entry E) Y k (settings pr) (fun m => mt_estimator_sparse k (set_max_iterations m pr) (Dataset c t))
| mt_solve_dense X Y k s d t : multi_target_of n T Y t -> penT_range k ->
    multi_fit n p T X Y k s (fun m => ok (mt_solver_call (dense_dm xops) (qmt_dense xops) k (solver_max_iterations m s) (Dataset (xm n p X) t) d))
| mt_solve_sparse E c Y k s d t : csc_of n p E c -> no_repeats p E -> multi_target_of n T Y t -> penT_range k ->
    multi_fit n p T (entry E) Y k s (fun m => ok (mt_solver_call (sparse_dm xops) (qmt_sparse xops) k (solver_max_iterations m s) (Dataset c t) d)).
End Calls.

(** the last epoch, and the epochs after which the inner loop tests its criterion, do not end with
    an extrapolation.  True without extrapolation and for the defaults [K = 5], 1000 epochs. *)
Definition calm_schedule (acc : bool) (K me : nat) : Prop :=
  acc = false \/ forall e, (e < me)%nat -> ((0 < e)%nat /\ e mod 10 = 0%nat) \/ S e = me -> e mod S K <> K.
(** from some budget on, the same coefficients are returned, and they satisfy [Q] *)
Definition settles {E} (p : nat) (Q : (nat -> R) -> Prop) (fit : nat -> res (result (list xr) E)) : Prop :=
  exists N w, Q w /\ forall m, (N <= m)%nat -> fit m = Ret (Ok (xv p w)).
Definition settles_mt {E} (p T : nat) (Q : rmat -> Prop) (fit : nat -> res (result (mat xr) E)) : Prop :=
  exists N W, Q W /\ forall m, (N <= m)%nat -> fit m = Ret (Ok (xm p T W)).
(** the hyperparameters pass validation *)
Definition accepted {A E} (fit : nat -> res (result A E)) : Prop := forall m e, fit m <> Ret (Err e).
(** weight of the (row) norm in a convex penalty *)
Definition l1_weight (k : single_pen) (c : R) : Prop := match k with LassoPen a => c = a | EnetPen a r => c = a * r | McpPen _ _ => False end.
Definition l1_weight_mt (k : multi_pen) (c : R) : Prop := match k with MtLassoPen a => c = a | MtEnetPen a r => c = a * r | BlockMcpPen _ _ => False end.
Definition convex1 (k : single_pen) : Prop := match k with McpPen _ _ => False | _ => True end.
Definition convexT (k : multi_pen) : Prop := match k with BlockMcpPen _ _ => False | _ => True end.
