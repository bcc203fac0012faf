(** Model of [src/solvers/anderson_bcd/mod.rs]. *)
From Coq Require Import List ZArith Bool Arith.
From Verif Require Import Ops Arr MUtils MDatasets MDatafitsMT MBlockPenalties MCd.
Import ListNotations.

Section BCD.
Context {F DM D P : Type} (o : FOps F)
        (dm : DesignMatrix F DM) (df : DatafitMT F DM D) (pen : PenaltyMT F P)
        (srt : list F -> list nat).
Local Notation "x + y" := (fadd o x y).
Local Notation "x - y" := (fsub o x y).
Local Notation "x * y" := (fmul o x y).
Local Notation "x / y" := (fdiv o x y).

(** 16-38 *)
Definition construct_grad_mt (ds : dataset DM F) (XW : mat F) (ws : list nat) (d : D)
  : res (mat F) :=
  rs <- mapM (fun j => dfm_gradient_j df d ds XW j) ws ;;
  reshape (length ws) (n_tasks (dtargets ds)) (concat rs).

(** 44-62 *)
Definition opt_cond_violation_mt (ds : dataset DM F) (W XW : mat F) (ws : list nat) (d : D) (p : P)
  : res (list F * F) :=
  grad_ws <- construct_grad_mt ds XW ws d ;;
  bpen_subdiff_distance pen p W grad_ws ws.

(** 75-85 *)
Definition mark_nonzero_mt (W : mat F) (kkt : list F) : res (list F * nat) :=
  foldM (fun st j =>
    Wj <- mrow W j ;;
    if any_nonzero o Wj then
      kkt' <- vset (fst st) j (finf o) ;; Ret (kkt', S (snd st))
    else Ret st) (seq 0 (mnr W)) (kkt, O).

(** 67-99 *)
Definition construct_ws_from_kkt_mt (kkt : list F) (W : mat F) (ws_start_size : nat)
  : res (list nat * nat) :=
  let n_features := mnr W in
  '(kkt', nnz_features) <- mark_nonzero_mt W kkt ;;
  let ws_size := Nat.max ws_start_size (Nat.min (2 * nnz_features) n_features) in
  sorted_indices <- argsort_desc o srt kkt' ;;
  let ws := firstn ws_size sorted_indices in
  if length ws =? ws_size then Ret (ws, ws_size) else Panic PUnwrap.

(** 128-137 *)
Definition store_iterate_mt (last_K_W : mat F) (W : mat F) (ws : list nat) (row : nat)
  : res (mat F) :=
  rs <- mapM (fun j => mrow W j) ws ;;
  mset_row last_K_W row (concat rs).

(** 169-184 *)
Definition scatter_mt (n_features n_tasks : nat) (pt : list F) (ws : list nat) : res (mat F) :=
  m <- reshape (length ws) n_tasks pt ;;
  foldM (fun W_acc rj => mset_row W_acc (snd rj) (fst rj))
        (combine (mrows m) ws) (mzeros o n_features n_tasks).

(** 104-217 *)
Definition anderson_accel_mt (ds : dataset DM F) (W XW : mat F) (d : D) (p : P)
    (ws : list nat) (last_K_W : mat F) (epoch K : nat) (_verbose : bool)
  : res (mat F * mat F * mat F) :=
  let ns := n_samples (dtargets ds) in
  n_features <- dm_n_features dm (design_matrix ds) ;;
  let nt := n_tasks (dtargets ds) in
  last_K_W <- store_iterate_mt last_K_W W ws (epoch mod (S K)) ;;
  if epoch mod (S K) =? K then
    pt <- anderson_point o last_K_W (length ws * nt)%nat K ;;
    match pt with
    | None => Ret (W, XW, last_K_W)
    | Some pt =>
        W_acc <- scatter_mt n_features nt pt ws ;;
        XW_acc <- dm_extrap_mt dm (design_matrix ds) ws W_acc ns nt ;;
        v <- dfm_value df d ds XW ;;
        let p_obj := v + bpen_value pen p W in
        v_acc <- dfm_value df d ds XW_acc ;;
        let p_obj_acc := v_acc + bpen_value pen p W_acc in
        if flt o p_obj_acc p_obj then Ret (W_acc, XW_acc, last_K_W)
        else Ret (W, XW, last_K_W)
    end
  else Ret (W, XW, last_K_W).

(** 293-326: one update of row [j] *)
Definition bcd_step (ds : dataset DM F) (d : D) (p : P) (st : mat F * mat F) (j : nat)
  : res (mat F * mat F) :=
  let '(W, XW) := st in
  let nt := n_tasks (dtargets ds) in
  lip <- vget (dfm_step_size df d) j ;;
  if feq o lip (f0 o) then Ret (W, XW)
  else
    old_W_j <- mrow W j ;;
    grad_j <- dfm_gradient_j df d ds XW j ;;
    step <- vsub o old_W_j (map (fun g => g / lip) grad_j) ;;
    let upd := bpen_prox pen p step (f1 o / lip) in
    W' <- foldM (fun W t => u <- vget upd t ;; mset W j t u) (seq 0 nt) W ;;
    diff <- mapM (fun tv => wjt <- mget W' j (fst tv) ;; Ret (wjt - snd tv))
                 (combine (seq 0 (length old_W_j)) old_W_j) ;;
    if any_nonzero o diff then
      XW' <- dm_update_mt dm (design_matrix ds) XW diff j ;;
      Ret (W', XW')
    else Ret (W', XW).

(** 289-374 *)
Fixpoint inner_loop_mt (ds : dataset DM F) (d : D) (p : P) (n_features : nat) (tolerance kkt_max : F)
    (K : nat) (use_acceleration verbose : bool) (ws : list nat) (ws_size : nat)
    (epochs : list nat) (W XW : mat F) (last_K_W : mat F) : res (mat F * mat F) :=
  match epochs with
  | [] => Ret (W, XW)
  | epoch :: epochs' =>
      '(W, XW) <- foldM (bcd_step ds d p) ws (W, XW) ;;
      '(W, XW, last_K_W) <-
         (if use_acceleration
          then anderson_accel_mt ds W XW d p ws last_K_W epoch K verbose
          else Ret (W, XW, last_K_W)) ;;
      let continue :=
        inner_loop_mt ds d p n_features tolerance kkt_max K use_acceleration verbose ws ws_size
                      epochs' W XW last_K_W in
      if (0 <? epoch) && (epoch mod 10 =? 0) then
        v <- dfm_value df d ds XW ;;
        '(_, kkt_ws_max) <- opt_cond_violation_mt ds W XW ws d p ;;
        if ws_size =? n_features then
          if fle o kkt_ws_max tolerance then Ret (W, XW) else continue
        else
          if flt o kkt_ws_max (flit o 3 10 * kkt_max) then Ret (W, XW) else continue
      else continue
  end.

(** 261-375 *)
Fixpoint outer_loop_mt (ds : dataset DM F) (d : D) (p : P)
    (n_features ws_start_size max_epochs : nat)
    (tolerance : F) (K : nat) (use_acceleration verbose : bool)
    (iterations : nat) (W XW : mat F) : res (mat F) :=
  match iterations with
  | O => Ret W
  | S iterations' =>
      '(kkt, kkt_max) <- opt_cond_violation_mt ds W XW (seq 0 n_features) d p ;;
      if fle o kkt_max tolerance then Ret W
      else
        '(ws, ws_size) <- construct_ws_from_kkt_mt kkt W ws_start_size ;;
        '(W, XW) <- inner_loop_mt ds d p n_features tolerance kkt_max K use_acceleration verbose
                       ws ws_size (seq 0 max_epochs) W XW
                       (mzeros o (S K) (ws_size * n_tasks (dtargets ds))) ;;
        outer_loop_mt ds d p n_features ws_start_size max_epochs tolerance K use_acceleration verbose
                      iterations' W XW
  end.

(** 221-378 *)
Definition block_coordinate_descent (ds : dataset DM F) (d : D) (p : P)
    (ws_start_size max_iterations max_epochs : nat) (tolerance : F) (K : nat)
    (use_acceleration verbose : bool) : res (mat F) :=
  let ns := n_samples (dtargets ds) in
  n_features <- dm_n_features dm (design_matrix ds) ;;
  let nt := n_tasks (dtargets ds) in
  d <- dfm_initialize df d ds ;;
  let ws_start_size := if n_features <? ws_start_size then n_features else ws_start_size in
  outer_loop_mt ds d p n_features ws_start_size max_epochs tolerance K use_acceleration verbose
                max_iterations (mzeros o n_features nt) (mzeros o ns nt).
End BCD.
