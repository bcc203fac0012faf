(** Model of [src/solvers/anderson_cd/mod.rs]. *)
From Coq Require Import List ZArith Bool Arith.
From Verif Require Import Ops Arr MUtils MDatasets MDatafits MPenalties.
Import ListNotations.

Section Accel.
Context {F : Type} (o : FOps F).
Local Notation "x * y" := (fmul o x y).
Local Notation "x / y" := (fdiv o x y).

(** anderson_cd 134-165 (and anderson_bcd 145-176, same text): the differences [U] of the stored
    iterates, the system [U.t().dot(U)], its solution and the combination of the first [K]
    iterates.  [width] is the number of columns ([ws.len()], resp. [ws.len() * n_tasks]).
    [None] stands for the [Err] branch. *)
Definition anderson_point (last_K_w : mat F) (width K : nat) : res (option (list F)) :=
  diffs <- mapM (fun rr => vsub o (snd rr) (fst rr))
             (combine (firstn K (mrows last_K_w)) (skipn 1 (mrows last_K_w))) ;;
  U <- reshape K width (concat diffs) ;;
  C <- mtm o U U ;;
  _res <- solve_lin_sys o C (repeat (f1 o) K) ;;
  match _res with
  | Err _ => Ret None
  | Ok z =>
      let s := nsum o z in
      let c := map (fun zi => zi / s) z in
      pt <- foldM (vadd o)
              (map2 (fun row c_k => map (fun x => x * c_k) row) (firstn K (mrows last_K_w)) c)
              (vzeros o width) ;;
      Ret (Some pt)
  end.
End Accel.

Section CD.
Context {F DM D P : Type} (o : FOps F)
        (dm : DesignMatrix F DM) (df : Datafit F DM D) (pen : Penalty F P)
        (srt : list F -> list nat).
Local Notation "x + y" := (fadd o x y).
Local Notation "x - y" := (fsub o x y).
Local Notation "x * y" := (fmul o x y).
Local Notation "x / y" := (fdiv o x y).

(** 15-32 *)
Definition construct_grad (ds : dataset DM F) (Xw : list F) (ws : list nat) (d : D)
  : res (list F) :=
  mapM (fun j => df_gradient_j df d ds Xw j) ws.

(** 38-56 *)
Definition opt_cond_violation (ds : dataset DM F) (w Xw : list F) (ws : list nat) (d : D) (p : P)
  : res (list F * F) :=
  grad_ws <- construct_grad ds Xw ws d ;;
  pen_subdiff_distance pen p w grad_ws ws.

(** 70-77: count the nonzero coefficients and give them priority infinity *)
Definition mark_nonzero (w : list F) (kkt : list F) : res (list F * nat) :=
  foldM (fun st j =>
    wj <- vget w j ;;
    if negb (feq o wj (f0 o)) then
      kkt' <- vset (fst st) j (finf o) ;; Ret (kkt', S (snd st))
    else Ret st) (seq 0 (length w)) (kkt, O).

(** 62-91 *)
Definition construct_ws_from_kkt (kkt : list F) (w : list F) (ws_start_size : nat)
  : res (list nat * nat) :=
  let n_features := length w in
  '(kkt', nnz_features) <- mark_nonzero w kkt ;;
  let ws_size := Nat.max ws_start_size (Nat.min (2 * nnz_features) n_features) in
  sorted_indices <- argsort_desc o srt kkt' ;;
  let ws := firstn ws_size sorted_indices in
  if length ws =? ws_size then Ret (ws, ws_size) else Panic PUnwrap.

(** 124-126: store the current iterate restricted to the working set *)
Definition store_iterate (last_K_w : mat F) (w : list F) (ws : list nat) (row : nat)
  : res (mat F) :=
  foldM (fun m ij => wj <- vget w (snd ij) ;; mset m row (fst ij) wj)
        (combine (seq 0 (length ws)) ws) last_K_w.

(** 158-170: coefficients of the extrapolated point *)
Definition scatter (n_features : nat) (pt : list F) (ws : list nat) : res (list F) :=
  foldM (fun w_acc pj => vset w_acc (snd pj) (fst pj)) (combine pt ws) (vzeros o n_features).

(** 101-205.  Returns the updated [w], [Xw] and [last_K_w] ([U] is overwritten before any use). *)
Definition anderson_accel (ds : dataset DM F) (d : D) (p : P) (last_K_w : mat F)
    (w Xw : list F) (ws : list nat) (epoch K : nat) (_verbose : bool)
  : res (list F * list F * mat F) :=
  let ns := n_samples (dtargets ds) in
  n_features <- dm_n_features dm (design_matrix ds) ;;
  last_K_w <- store_iterate last_K_w w ws (epoch mod (S K)) ;;
  if epoch mod (S K) =? K then
    pt <- anderson_point o last_K_w (length ws) K ;;
    match pt with
    | None => Ret (w, Xw, last_K_w)
    | Some pt =>
        w_acc <- scatter n_features pt ws ;;
        Xw_acc <- dm_extrap dm (design_matrix ds) ws w_acc ns ;;
        v <- df_value df d ds Xw ;;
        let p_obj := v + pen_value pen p w in
        v_acc <- df_value df d ds Xw_acc ;;
        let p_obj_acc := v_acc + pen_value pen p w_acc in
        if flt o p_obj_acc p_obj then Ret (w_acc, Xw_acc, last_K_w)
        else Ret (w, Xw, last_K_w)
    end
  else Ret (w, Xw, last_K_w).

(** 297-312: one update of coefficient [j] *)
Definition cd_step (ds : dataset DM F) (d : D) (p : P) (st : list F * list F) (j : nat)
  : res (list F * list F) :=
  let '(w, Xw) := st in
  lip <- vget (df_step_size df d) j ;;
  if feq o lip (f0 o) then Ret (w, Xw)
  else
    old_w_j <- vget w j ;;
    grad_j <- df_gradient_j df d ds Xw j ;;
    let new_w_j := pen_prox pen p (old_w_j - grad_j / lip) (f1 o / lip) in
    w' <- vset w j new_w_j ;;
    let diff := new_w_j - old_w_j in
    if negb (feq o diff (f0 o)) then
      Xw' <- dm_update dm (design_matrix ds) Xw diff j ;;
      Ret (w', Xw')
    else Ret (w', Xw).

(** 293-363: the inner loop over the remaining [epochs] *)
Fixpoint inner_loop (ds : dataset DM F) (d : D) (p : P) (n_features : nat) (tolerance kkt_max : F)
    (K : nat) (use_acceleration verbose : bool) (ws : list nat) (ws_size : nat)
    (epochs : list nat) (w Xw : list F) (last_K_w : mat F) : res (list F * list F) :=
  match epochs with
  | [] => Ret (w, Xw)
  | epoch :: epochs' =>
      '(w, Xw) <- foldM (cd_step ds d p) ws (w, Xw) ;;
      '(w, Xw, last_K_w) <-
         (if use_acceleration
          then anderson_accel ds d p last_K_w w Xw ws epoch K verbose
          else Ret (w, Xw, last_K_w)) ;;
      let continue :=
        inner_loop ds d p n_features tolerance kkt_max K use_acceleration verbose ws ws_size
                   epochs' w Xw last_K_w in
      if (0 <? epoch) && (epoch mod 10 =? 0) then
        v <- df_value df d ds Xw ;;
        '(_, kkt_ws_max) <- opt_cond_violation ds w Xw ws d p ;;
        if ws_size =? n_features then
          if fle o kkt_ws_max tolerance then Ret (w, Xw) else continue
        else
          if flt o kkt_ws_max (flit o 3 10 * kkt_max) then Ret (w, Xw) else continue
      else continue
  end.

(** 265-364: the outer loop *)
Fixpoint outer_loop (ds : dataset DM F) (d : D) (p : P) (n_features ws_start_size max_epochs : nat)
    (tolerance : F) (K : nat) (use_acceleration verbose : bool)
    (iterations : nat) (w Xw : list F) : res (list F) :=
  match iterations with
  | O => Ret w
  | S iterations' =>
      '(kkt, kkt_max) <- opt_cond_violation ds w Xw (seq 0 n_features) d p ;;
      if fle o kkt_max tolerance then Ret w
      else
        '(ws, ws_size) <- construct_ws_from_kkt kkt w ws_start_size ;;
        '(w, Xw) <- inner_loop ds d p n_features tolerance kkt_max K use_acceleration verbose
                       ws ws_size (seq 0 max_epochs) w Xw (mzeros o (S K) ws_size) ;;
        outer_loop ds d p n_features ws_start_size max_epochs tolerance K use_acceleration verbose
                   iterations' w Xw
  end.

(** 226-367 *)
Definition coordinate_descent (ds : dataset DM F) (d : D) (p : P)
    (ws_start_size max_iterations max_epochs : nat) (tolerance : F) (K : nat)
    (use_acceleration verbose : bool) : res (list F) :=
  let ns := n_samples (dtargets ds) in
  n_features <- dm_n_features dm (design_matrix ds) ;;
  d <- df_initialize df d ds ;;
  let ws_start_size := if n_features <? ws_start_size then n_features else ws_start_size in
  outer_loop ds d p n_features ws_start_size max_epochs tolerance K use_acceleration verbose
             max_iterations (vzeros o n_features) (vzeros o ns).
End CD.
