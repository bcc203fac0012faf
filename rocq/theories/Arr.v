(** One- and two-dimensional arrays (ndarray [Array1]/[Array2], views included).
    An [Array1] is a list; an [Array2] carries its shape and its list of rows.
    Simplification: memory layout is not represented. *)
From Coq Require Import List ZArith Bool Arith.
From Verif Require Import Ops.
Import ListNotations.

Section Generic.
Context {A B C : Type}.

(** [a[i]] *)
Definition vget (l : list A) (i : nat) : res A :=
  match nth_error l i with Some a => Ret a | None => Panic POob end.

(** total update at a position, used by [vset] *)
Fixpoint upd (l : list A) (i : nat) (a : A) : list A :=
  match l, i with
  | [], _ => []
  | _ :: l', O => a :: l'
  | x :: l', S i' => x :: upd l' i' a
  end.

(** [a[i] = v] *)
Definition vset (l : list A) (i : nat) (a : A) : res (list A) :=
  if i <? length l then Ret (upd l i a) else Panic POob.

(** [a[z as usize]] for an [i32] [z]: negative values wrap to huge indices *)
Definition vgetz (l : list A) (z : Z) : res A :=
  if (z <? 0)%Z then Panic POob else vget l (Z.to_nat z).

Definition vsetz (l : list A) (z : Z) (a : A) : res (list A) :=
  if (z <? 0)%Z then Panic POob else vset l (Z.to_nat z) a.

(** cut a flat list into [r] chunks of length [c] *)
Fixpoint chop (c r : nat) (l : list A) : list (list A) :=
  match r with
  | O => []
  | S r' => firstn c l :: chop c r' (skipn c l)
  end.

(** element-wise combination of two lists *)
Definition map2 (f : A -> B -> C) (l1 : list A) (l2 : list B) : list C :=
  map (fun p => f (fst p) (snd p)) (combine l1 l2).
End Generic.

(** [lo..hi] over [i32] *)
Definition zrange (lo hi : Z) : list Z :=
  map (fun k => (lo + Z.of_nat k)%Z) (seq 0 (Z.to_nat (hi - lo))).

Record mat (A : Type) : Type := Mat { mnr : nat; mnc : nat; mrows : list (list A) }.
Arguments Mat {A}. Arguments mnr {A}. Arguments mnc {A}. Arguments mrows {A}.

(** shape invariant maintained by ndarray *)
Definition mwf {A} (m : mat A) : Prop :=
  length (mrows m) = mnr m /\ Forall (fun r => length r = mnc m) (mrows m).

Section Mats.
Context {A : Type} (d : A).

(** [Array2::from_shape_vec((r,c), flat)] followed by [unwrap] *)
Definition reshape (r c : nat) (flat : list A) : res (mat A) :=
  if length flat =? r * c then Ret (Mat r c (chop c r flat)) else Panic PUnwrap.

(** [m[[i,j]]] *)
Definition mget (m : mat A) (i j : nat) : res A :=
  r <- vget (mrows m) i ;; vget r j.

(** [m[[i,j]] = v] *)
Definition mset (m : mat A) (i j : nat) (v : A) : res (mat A) :=
  r <- vget (mrows m) i ;;
  r' <- vset r j v ;;
  rs <- vset (mrows m) i r' ;;
  Ret (Mat (mnr m) (mnc m) rs).

(** [m.slice(s![i, ..])] *)
Definition mrow (m : mat A) (i : nat) : res (list A) := vget (mrows m) i.

(** entries of column [j]; [d] never appears for a well-shaped matrix and [j < mnc m] *)
Definition colv (m : mat A) (j : nat) : list A := map (fun r => nth j r d) (mrows m).

(** [m.slice(s![.., j])] *)
Definition mcol (m : mat A) (j : nat) : res (list A) :=
  if j <? mnc m then Ret (colv m j) else Panic POob.

(** [m.slice_mut(s![i, ..]).assign(v)] *)
Definition mset_row (m : mat A) (i : nat) (v : list A) : res (mat A) :=
  r <- vget (mrows m) i ;;
  if length v =? length r then
    rs <- vset (mrows m) i v ;; Ret (Mat (mnr m) (mnc m) rs)
  else Panic PShape.

(** [m.t()] as a list of columns *)
Definition cols (m : mat A) : list (list A) := map (colv m) (seq 0 (mnc m)).

(** [Array2::zeros((r,c))] *)
Definition mfill (r c : nat) : mat A := Mat r c (repeat (repeat d c) r).
End Mats.

Section Num.
Context {F : Type} (o : FOps F).

(** [Array1::zeros(n)] *)
Definition vzeros (n : nat) : list F := repeat (f0 o) n.

Definition mzeros (r c : nat) : mat F := mfill (f0 o) r c.

(** [a.dot(&b)] on 1-D arrays: panics on a length mismatch *)
Definition vdot (a b : list F) : res F :=
  if length a =? length b then Ret (ndot o a b) else Panic PShape.

(** [&a - &b], [a + b]: equal lengths, or a length-1 array is repeated (ndarray broadcasting) *)
Definition vbin (f : F -> F -> F) (a b : list F) : res (list F) :=
  if length a =? length b then Ret (map2 f a b) else
  match a, b with
  | [x], _ => Ret (map (f x) b)
  | _, [y] => Ret (map (fun x => f x y) a)
  | _, _ => Panic PShape
  end.

(** [a.scaled_add(k, &b)] computes [a + k * b] in place: only [b] is repeated *)
Definition vaxpy (k : F) (a b : list F) : res (list F) :=
  if length a =? length b then Ret (map2 (fun y x => fadd o y (fmul o k x)) a b) else
  match b with
  | [x] => Ret (map (fun y => fadd o y (fmul o k x)) a)
  | _ => Panic PShape
  end.
Definition vsub := vbin (fsub o).
Definition vadd := vbin (fadd o).

(** [x.powi(2)] *)
Definition sq (x : F) : F := fmul o x x.

(** [X.t().dot(&y)]: one dot product per column *)
Definition mtv (X : mat F) (y : list F) : res (list F) :=
  if mnr X =? length y then Ret (map (fun c => ndot o c y) (cols (f0 o) X)) else Panic PShape.

(** [X.t().dot(&Y)] *)
Definition mtm (X Y : mat F) : res (mat F) :=
  if mnr X =? mnr Y then
    Ret (Mat (mnc X) (mnc Y)
             (map (fun c => map (fun c' => gdot o c c') (cols (f0 o) Y)) (cols (f0 o) X)))
  else Panic PShape.

(** [x.dot(&Y)] for a vector and a matrix: [Y.t().dot(x)] in ndarray *)
Definition vtm (x : list F) (Y : mat F) : res (list F) :=
  if mnr Y =? length x then Ret (map (fun c => ndot o c x) (cols (f0 o) Y)) else Panic PShape.

(** [a.fold(init, |m, &d| F::max(m, d))] *)
Definition fold_max (init : F) (l : list F) : F := fold_left (fun m x => fmax o m x) l init.
End Num.
