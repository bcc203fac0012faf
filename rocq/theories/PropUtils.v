(** Property theorems C32 (linear solver) and C42 (penalty values), exact real arithmetic. *)
From Coq Require Import List ZArith Arith Reals Lra Lia.
From Verif Require Import Ops Arr MUtils MPenalties MBlockPenalties XR SpecPen PBase RSum SpecLin PLin2 PPenVal.
Import ListNotations.
Open Scope R_scope.

(** *** C32 *)
Theorem C32_exact_when_lu_factorisation_exists n A L U b : (1 <= n)%nat -> lu n A L U ->
  exists x, solve_lin_sys xops (xm n n A) (xv n b) = Ret (Ok (xv n x)) /\
    forall y, solves n A b y <-> eq_on n y x.
Proof. exact (lu_result n A L U b). Qed.
Print Assumptions C32_exact_when_lu_factorisation_exists.
Example C32_lu_nonvacuous : exists A L U, lu 2 A L U /\ A 0%nat 1%nat = 1 /\ A 1%nat 0%nat = 3.
Proof. exact ex_lu. Qed.
Theorem C32_exact_on_positive_definite n A b : (1 <= n)%nat -> symmetric n A -> pos_def n A ->
  exists x, solve_lin_sys xops (xm n n A) (xv n b) = Ret (Ok (xv n x)) /\
    forall y, solves n A b y <-> eq_on n y x.
Proof. exact (pd_result n A b). Qed.
Print Assumptions C32_exact_on_positive_definite.
Example C32_pd_nonvacuous :
  symmetric 2 (fun i j => if (i =? j)%nat then 2 else 1) /\ pos_def 2 (fun i j => if (i =? j)%nat then 2 else 1).
Proof. exact ex_pd. Qed.
(** positive semidefinite matrices: a success is the unique solution, an error means singular *)
Theorem C32_semidefinite_success_is_the_solution n ra ca A b :
  (1 <= n)%nat -> (n <= ra)%nat -> (n <= ca)%nat -> symmetric n A -> pos_semidef n A ->
  solve_lin_sys xops (xm ra ca A) (xv n b) = Ret (Err SingularMatrix) \/
  exists x, solve_lin_sys xops (xm ra ca A) (xv n b) = Ret (Ok (xv n x)) /\
    forall y, solves n A b y <-> eq_on n y x.
Proof. exact (psd_result n ra ca A b). Qed.
Print Assumptions C32_semidefinite_success_is_the_solution.
Theorem C32_semidefinite_error_iff_singular n A b : (1 <= n)%nat -> symmetric n A -> pos_semidef n A ->
  (solve_lin_sys xops (xm n n A) (xv n b) = Ret (Err SingularMatrix) -> singular n A) /\
  (forall x, solve_lin_sys xops (xm n n A) (xv n b) = Ret (Ok x) -> ~ singular n A).
Proof. exact (fun H1 H2 H3 => conj (psd_err n A b H1 H2 H3) (fun x => psd_ok_nonsingular n A b x H1 H2 H3)). Qed.
Print Assumptions C32_semidefinite_error_iff_singular.
Theorem C32_wrong_answer_refuted :
  exists A b x y, solve_lin_sys xops (xm 2 2 A) (xv 2 b) = Ret (Ok (xv 2 x)) /\
    solves 2 A b y /\ ~ singular 2 A /\ ~ solves 2 A b x.
Proof. exact bad_ok. Qed.
Print Assumptions C32_wrong_answer_refuted.
Theorem C32_nonsingular_reported_singular_refuted :
  exists A b y, solve_lin_sys xops (xm 2 2 A) (xv 2 b) = Ret (Err SingularMatrix) /\
    ~ singular 2 A /\ solves 2 A b y.
Proof. exact bad_err. Qed.
Print Assumptions C32_nonsingular_reported_singular_refuted.

(** *** C42 *)
Theorem C42_separable_penalty_values a r g w : 0 <= a -> 0 <= r <= 1 -> 0 < g ->
  (l1_value xops (L1 (Fin a)) (map Fin w) = Fin (Rsum (map (abs_pen a) w)) /\
     0 <= Rsum (map (abs_pen a) w)) /\
  (l1l2_value xops (L1PlusL2 (Fin a) (Fin r)) (map Fin w) = Fin (Rsum (map (enet_pen a r) w)) /\
     0 <= Rsum (map (enet_pen a r) w)) /\
  (mcp_value xops (MCP (Fin a) (Fin g)) (map Fin w) = Fin (Rsum (map (mcp_pen a g) w)) /\
     0 <= Rsum (map (mcp_pen a g) w)) /\
  (l05_value xops (L05 (Fin a)) (map Fin w) = Fin (Rsum (map (fun u => a * sqrt (Rabs u)) w)) /\
     0 <= Rsum (map (fun u => a * sqrt (Rabs u)) w)).
Proof. exact (separable_values a r g w). Qed.
Print Assumptions C42_separable_penalty_values.
Theorem C42_block_penalty_values a r g nr nc W : 0 <= a -> 0 <= r <= 1 -> 0 < g ->
  let M := Mat nr nc (map (map Fin) W) in
  (l21_value xops (L21 (Fin a)) M = Fin (Rsum (map (fun row => abs_pen a (norm2 row)) W)) /\
     0 <= Rsum (map (fun row => abs_pen a (norm2 row)) W)) /\
  (bl1l2_value xops (BlockL1PlusL2 (Fin a) (Fin r)) M = Fin (Rsum (map (fun row => enet_pen a r (norm2 row)) W)) /\
     0 <= Rsum (map (fun row => enet_pen a r (norm2 row)) W)) /\
  (bmcp_value xops (BlockMCP (Fin a) (Fin g)) M = Fin (Rsum (map (fun row => mcp_pen a g (norm2 row)) W)) /\
     0 <= Rsum (map (fun row => mcp_pen a g (norm2 row)) W)).
Proof. exact (block_values a r g nr nc W). Qed.
Print Assumptions C42_block_penalty_values.
Theorem C42_penalties_vanish_at_zero a r g n t : 0 <= a -> 0 <= r <= 1 -> 0 < g ->
  l1_value xops (L1 (Fin a)) (vzeros xops n) = Fin 0 /\
  l1l2_value xops (L1PlusL2 (Fin a) (Fin r)) (vzeros xops n) = Fin 0 /\
  mcp_value xops (MCP (Fin a) (Fin g)) (vzeros xops n) = Fin 0 /\
  l05_value xops (L05 (Fin a)) (vzeros xops n) = Fin 0 /\
  l21_value xops (L21 (Fin a)) (mzeros xops n t) = Fin 0 /\
  bl1l2_value xops (BlockL1PlusL2 (Fin a) (Fin r)) (mzeros xops n t) = Fin 0 /\
  bmcp_value xops (BlockMCP (Fin a) (Fin g)) (mzeros xops n t) = Fin 0.
Proof. exact (zero_values a r g n t). Qed.
Print Assumptions C42_penalties_vanish_at_zero.
Theorem C42_mcp_flat_and_continuous a g : 0 <= a -> 0 < g ->
  (forall u, g * a <= Rabs u -> mcp_pen1 xops (MCP (Fin a) (Fin g)) (Fin u) = Fin (g * a ^ 2 / 2)) /\
  (forall u v, exists x y, mcp_pen1 xops (MCP (Fin a) (Fin g)) (Fin u) = Fin x /\
     mcp_pen1 xops (MCP (Fin a) (Fin g)) (Fin v) = Fin y /\ Rabs (x - y) <= a * Rabs (u - v)).
Proof. exact (mcp_flat_cont a g). Qed.
Print Assumptions C42_mcp_flat_and_continuous.
Example C42_nonvacuous : 0 <= 2 /\ 0 <= 1/2 <= 1 /\ 0 < 3 /\
  mcp_value xops (MCP (Fin 2) (Fin 3)) (map Fin [1; -7]) = Fin (11/6 + 6).
Proof. exact ex_c42. Qed.
