(** Model of [python/sparseglm/utils.py].

    The pseudo-random draws are inputs (record [draws]); [int(x)] is the parameter [py_int].
    numpy's memory order is not represented.  Numbers of samples, features and tasks are natural
    numbers; [corr], [snr] and [density] are floats. *)
From Coq Require Import List ZArith Bool Arith.
From Verif Require Import Ops Arr MDatasets MPython.
Import ListNotations.

(** What [rng] hands out.  Column [j] of the design uses [d_x j]: the column [j] of
    [rng.randn(n_samples, n_features)] (79), or the draw [rng.randn(n_samples)] of 85 ([j] = 0) and
    91; [d_choice] is [rng.choice] (96); [d_w] is the draw of 97, [d_noise] that of 101. *)
Record draws (F : Type) : Type := Draws {
  d_x : nat -> nat -> F;                (* feature, sample *)
  d_choice : nat -> nat -> list nat;    (* range, number *)
  d_w : nat -> nat -> F;                (* position in the support, task *)
  d_noise : nat -> nat -> F             (* sample, task *)
}.
Arguments Draws {F}. Arguments d_x {F}. Arguments d_choice {F}. Arguments d_w {F}. Arguments d_noise {F}.

Section PyUtils.
Context {F : Type} (o : FOps F).

(** [rng.randn(k)] *)
Definition randn (k : nat) (g : nat -> F) : list F := map g (seq 0 k).
(** [rng.randn(r, c)] *)
Definition randn2 (r c : nat) (g : nat -> nat -> F) : mat F := Mat r c (map (fun i => randn c (g i)) (seq 0 r)).

(** [a.max()] / [np.max(a)]: NaN if an element is NaN, [ValueError] if there is no element *)
Definition np_maximum (a b : F) : F :=
  if fisnan o a then a else if fisnan o b then b else fmax o a b.
Definition np_max (l : list F) : pyres F :=
  match l with [] => PyRaise ValueErr | a :: l' => PyRet (fold_left np_maximum l' a) end.

(** [norm(A)] of the flattened array, and [norm(A, axis=1)] of each row *)
Definition np_norm (l : list F) : F := fsqrt o (ndot o l l).
Definition np_norm_rows (A : mat F) : list F := map (fun r => fsqrt o (nsum o (map (sq o) r))) (mrows A).

(** [A @ B] *)
Definition np_matmul (A : mat F) (B : targets F) : pyres (targets F) :=
  match B with
  | T1 b => if mnc A =? length b then PyRet (T1 (map (fun r => ndot o r b) (mrows A))) else PyRaise ValueErr
  | T2 B => if mnc A =? mnr B
            then PyRet (T2 (Mat (mnr A) (mnc B) (map (fun r => map (gdot o r) (cols (f0 o) B)) (mrows A))))
            else PyRaise ValueErr
  end.
(** [A.T @ B] *)
Definition np_tmatmul (A : mat F) (B : targets F) : pyres (targets F) :=
  np_matmul (Mat (mnc A) (mnr A) (cols (f0 o) A)) B.

(** elements in order *)
Definition np_ravel (t : targets F) : list F := match t with T1 l => l | T2 M => concat (mrows M) end.

(** utils.py 6-9 *)
Definition py_compute_alpha_max (X : mat F) (Y : targets F) : pyres F :=
  pybind (np_tmatmul X Y) (fun XtY =>
  pybind (match XtY with
          | T1 v => np_max (map (fabs o) v)
          | T2 V => np_max (np_norm_rows V)
          end) (fun m => PyRet (fdiv o m (fcast o (mnr X))))).

(** utils.py 12-14 *)
Definition py_sum_squared (X : targets F) : F := ndot o (np_ravel X) (np_ravel X).

(** 85-92: the columns, one after the other *)
Fixpoint ar_columns (corr sigma : F) (n_samples : nat) (U : list F) (g : nat -> nat -> F) (j k : nat) : list (list F) :=
  match k with
  | O => []
  | S k' =>
      let U' := map2 (fadd o) (map (fun u => fmul o u corr) U) (map (fmul o sigma) (randn n_samples (g j))) in
      U' :: ar_columns corr sigma n_samples U' g (S j) k'
  end.

(** 78-92 *)
Definition py_design (n_samples n_features : nat) (corr : F) (g : nat -> nat -> F) : pyres (mat F) :=
  if feq o corr (f0 o) then PyRet (randn2 n_samples n_features (fun i j => g j i))
  else
    let sigma := fsqrt o (fsub o (f1 o) (sq o corr)) in
    let U := randn n_samples (g 0) in
    if n_features =? 0 then PyRaise IndexErr
    else
      let columns := U :: ar_columns corr sigma n_samples U g 1 (n_features - 1) in
      PyRet (Mat n_samples n_features (map (fun i => map (fun c => nth i c (f0 o)) columns) (seq 0 n_samples))).

(** 95-97: [w_true\[support, :\] = values], one row after the other *)
Definition py_coefficients (n_features n_tasks nnz : nat) (d : draws F) : mat F :=
  let support := d_choice d n_features nnz in
  Mat n_features n_tasks
    (fold_left (fun rows ks => upd rows (snd ks) (randn n_tasks (d_w d (fst ks))))
       (combine (seq 0 nnz) support) (repeat (repeat (f0 o) n_tasks) n_features)).

(** [Y += N] where [N] has two dimensions and as many rows as [Y]: a single column is repeated; the
    result must have the shape of [Y] *)
Definition np_iadd (Y : targets F) (N : mat F) : pyres (targets F) :=
  match Y with
  | T1 _ => PyRaise ValueErr
  | T2 Ym =>
      if mnc N =? mnc Ym then PyRet (T2 (Mat (mnr Ym) (mnc Ym) (map2 (map2 (fadd o)) (mrows Ym) (mrows N))))
      else if mnc N =? 1 then
        PyRet (T2 (Mat (mnr Ym) (mnc Ym)
          (map2 (fun y e => map (fun v => fadd o v (nth 0 e (f0 o))) y) (mrows Ym) (mrows N))))
      else PyRaise ValueErr
  end.

(** utils.py 17-106 *)
Definition py_make_correlated_data (py_int : F -> nat) (n_samples n_features n_tasks : nat) (corr snr density : F)
    (w_true : option (targets F)) (d : draws F) : pyres (mat F * targets F * targets F) :=
  if negb (fle o (f0 o) corr && flt o corr (f1 o)) then PyRaise ValueErr
  else if negb (flt o (f0 o) density && fle o density (f1 o)) then PyRaise ValueErr
  else
    let nnz := py_int (fmul o density (fcast o n_features)) in
    pybind (py_design n_samples n_features corr (d_x d)) (fun X =>
    let w := match w_true with Some w => w | None => T2 (py_coefficients n_features n_tasks nnz d) end in
    pybind (np_matmul X w) (fun Y =>
    pybind (if feq o snr (finf o) then PyRet Y
            else
              let noise := randn2 n_samples n_tasks (d_noise d) in
              let nn := np_norm (concat (mrows noise)) in
              let ny := np_norm (np_ravel Y) in
              np_iadd Y (Mat n_samples n_tasks
                (map (map (fun e => fdiv o (fmul o (fdiv o e nn) ny) snr)) (mrows noise)))) (fun Y =>
    if n_tasks =? 1 then PyRet (X, T1 (np_ravel Y), T1 (np_ravel w)) else PyRet (X, Y, w)))).
End PyUtils.
