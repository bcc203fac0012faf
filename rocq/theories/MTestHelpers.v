(** Model of [utils::test_helpers], src/utils/mod.rs 176-257: comparison of arrays and the synthetic
    data of the tests, examples and benchmarks.

    [normal] is the sequence of values drawn from the generator seeded with 42 (218-219); every call
    of [fill_random_vector] seeds anew and so reads it from the start. *)
From Coq Require Import List ZArith Bool Arith.
From Verif Require Import Ops Arr.
Import ListNotations.

(** outcome of an assertion: a failed [assert_eq!] or an explicit [panic!] *)
Inductive assertion : Type := Passed | Failed.

Section Helpers.
Context {F : Type} (o : FOps F).

(** [x.abs_diff_ne(&y, delta)] of the crate approx 0.4 *)
Definition abs_diff_ne (x y delta : F) : bool := negb (fle o (fabs o (fsub o x y)) delta).

(** 185-195 *)
Definition assert_array_all_close (x y : list F) (delta : F) : assertion :=
  if negb (length x =? length y) then Failed
  else if existsb (fun p => abs_diff_ne (fst p) (snd p) delta) (combine x y) then Failed else Passed.

(** 197-215 *)
Definition assert_array2d_all_close (x y : mat F) (delta : F) : assertion :=
  if negb (mnr x =? mnr y) then Failed
  else if negb (mnc x =? mnc y) then Failed
  else if existsb (fun p => existsb (fun q => abs_diff_ne (fst q) (snd q) delta) (combine (fst p) (snd p)))
            (combine (mrows x) (mrows y)) then Failed else Passed.

Context (normal : nat -> F).

(** 217-226; [Vec::with_capacity(c)] of floats has capacity [c] *)
Definition fill_random_vector (capacity : nat) : list F := map normal (seq 0 capacity).

(** [Array2::from_shape_vec((r, c).f(), flat).unwrap()]: column after column *)
Definition reshape_f (r c : nat) (flat : list F) : res (mat F) :=
  if length flat =? r * c
  then Ret (Mat r c (map (fun i => map (fun col => nth i col (f0 o)) (chop r c flat)) (seq 0 r)))
  else Panic PUnwrap.

(** 228-239 *)
Definition generate_random_data (n_samples n_features : nat) : res (mat F * list F) :=
  let data_x := fill_random_vector (n_samples * n_features) in
  let true_w := fill_random_vector n_features in
  let noise := fill_random_vector n_samples in
  X <- reshape_f n_samples n_features data_x ;;
  y <- vadd o (map (fun row => ndot o row true_w) (mrows X)) noise ;;
  Ret (X, y).

(** 241-256 *)
Definition generate_random_data_mtl (n_samples n_features n_tasks : nat) : res (mat F * mat F) :=
  let data_x := fill_random_vector (n_samples * n_features) in
  let data_w := fill_random_vector (n_features * n_tasks) in
  let data_e := fill_random_vector (n_samples * n_tasks) in
  X <- reshape_f n_samples n_features data_x ;;
  true_W <- reshape n_features n_tasks data_w ;;
  noise <- reshape n_samples n_tasks data_e ;;
  rows <- mapM (fun re => vadd o (map (gdot o (fst re)) (cols (f0 o) true_W)) (snd re))
            (combine (mrows X) (mrows noise)) ;;
  Ret (X, Mat n_samples n_tasks rows).
End Helpers.
