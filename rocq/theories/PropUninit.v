(** Property theorem C84, continued: the first component of the gradient of a quadratic datafit
    which was never initialised.  Exact arithmetic. *)
From Coq Require Import List ZArith Bool Arith Reals Lia.
From Verif Require Import Ops Arr MUtils MDatasets MDatafits MDatafitsMT XR RSum SpecLin SpecData PDataEx PUninit.
Import ListNotations.
Open Scope R_scope.

(** it is the one for targets that are all zero, whatever the targets and the number of tasks *)
Theorem C84_uninitialised_gradient n p T X t y t' Y Z ZZ : (1 <= n)%nat -> (1 <= p)%nat -> single_target_of n y t -> multi_target_of n T Y t' ->
  (df_gradient_j (quad_dense xops) (df_new (quad_dense xops)) (Dataset (xm n p X) t) (xv n Z) 0 = Ret (Fin (Sum n (fun i => X i 0%nat * Z i) / INR n))) /\
  (dfm_gradient_j (qmt_dense xops) (dfm_new (qmt_dense xops)) (Dataset (xm n p X) t') (xm n T ZZ) 0 = Ret (xv T (fun u => Sum n (fun i => X i 0%nat * ZZ i u) / INR n))) /\
  forall E c, csc_of n p E c -> X = entry E ->
  df_gradient_j (quad_sparse xops) (df_new (quad_sparse xops)) (Dataset c t) (xv n Z) 0 = Ret (Fin (Sum n (fun i => X i 0%nat * Z i) / INR n)) /\
  dfm_gradient_j (qmt_sparse xops) (dfm_new (qmt_sparse xops)) (Dataset c t') (xm n T ZZ) 0 = Ret (xv T (fun u => Sum n (fun i => X i 0%nat * ZZ i u) / INR n)).
Proof. exact (uninit n p T X t y t' Y Z ZZ). Qed.
Print Assumptions C84_uninitialised_gradient.
(** all further components are out of bounds *)
Theorem C84_uninitialised_further_components n p T X t y t' Y Z ZZ j : (1 <= j < p)%nat -> single_target_of n y t -> multi_target_of n T Y t' ->
  df_gradient_j (quad_dense xops) (df_new (quad_dense xops)) (Dataset (xm n p X) t) (xv n Z) j = Panic POob /\
  dfm_gradient_j (qmt_dense xops) (dfm_new (qmt_dense xops)) (Dataset (xm n p X) t') (xm n T ZZ) j = Panic POob /\
  forall E c, csc_of n p E c ->
  df_gradient_j (quad_sparse xops) (df_new (quad_sparse xops)) (Dataset c t) (xv n Z) j = Panic POob /\
  dfm_gradient_j (qmt_sparse xops) (dfm_new (qmt_sparse xops)) (Dataset c t') (xm n T ZZ) j = Panic POob.
Proof. exact (uninit_oob n p T X t y t' Y Z ZZ j). Qed.
Print Assumptions C84_uninitialised_further_components.
Example C84_uninitialised_gradient_nonvacuous : csc_of 3 3 exE exC /\ single_target_of 3 (fun i => INR i - 1) (T1 (xv 3 (fun i => INR i - 1))) /\
  multi_target_of 3 2 (fun i t => INR i - INR t) (T2 (xm 3 2 (fun i t => INR i - INR t))).
Proof. exact (conj (proj1 ex_csc) (conj (proj1 ex_target) (proj1 (proj2 (proj2 ex_target))))). Qed.
