(** Concrete cases for C63 to C67. *)
From Coq Require Import List ZArith Bool Arith Lia Lra Reals.
From Verif Require Import Ops Arr MUtils MDatasets MPython MPyUtils MTestHelpers XR PBase RSum SpecLin SpecData SpecDatafit SpecSynth PLin PDatafit PDataProps PSynth PSynth2.
Import ListNotations.
Open Scope R_scope.

Definition dG : rmat := fun j _ => INR (j + 1).
Definition dV : rmat := fun _ _ => 5.
Definition dN : rmat := fun _ _ => 3.
Definition dex : draws xr := Draws (fun j i => Fin (dG j i)) (fun _ k => seq 0 k) (fun k t => Fin (dV k t)) (fun i t => Fin (dN i t)).
Lemma dex_finite : finite_draws dex dG dV dN.
Proof. repeat split. Qed.
Lemma dex_fair : fair_choice dex.
Proof. intros n k H. simpl. rewrite seq_length. split; auto. split; [apply seq_NoDup|]. intros s Hs. apply in_seq in Hs. lia. Qed.

Lemma frob1 (M : rmat) : frob 1 1 M = Rabs (M 0%nat 0%nat).
Proof. unfold frob. rewrite !Sum_S, !Sum_0. rewrite <- sqrt_Rsqr_abs. f_equal. unfold Rsqr. ring. Qed.
Lemma sigma_ex : sqrt (1 - (3/5) ^ 2) = 4/5.
Proof. replace (1 - (3/5) ^ 2) with (Rsqr (4/5)) by (unfold Rsqr; field). apply sqrt_Rsqr. lra. Qed.
Lemma design_ex : design_of (3/5) 2 dG 0%nat 0%nat = 1 /\ design_of (3/5) 2 dG 0%nat 1%nat = 11/5.
Proof. unfold design_of. rewrite sigma_ex. rewrite !Sum_S, !Sum_0. unfold dG. simpl. split; field. Qed.
Lemma xint_2 : xint (fmul xops (Fin 1) (fcast xops 2)) = 2%nat.
Proof.
  destruct (nnz_bounds 1 2 ltac:(lra)) as [B _]. set (k := xint _) in *. simpl in B.
  destruct (Nat.lt_total k 2) as [H|[H|H]]; auto; exfalso.
  - assert (H' : (k <= 1)%nat) by lia. apply le_INR in H'. simpl in H'. lra.
  - assert (H' : (3 <= k)%nat) by lia. apply le_INR in H'. simpl in H'. lra.
Qed.
Lemma coef_ex : py_coefficients xops 2 1 2 dex = xm 2 1 dV.
Proof. reflexivity. Qed.
Lemma make_ex : exists Y, py_make_correlated_data xops xint 1 2 1 (Fin (3/5)) (Fin 2) (Fin 1) None dex =
  PyRet (Mat 1 2 [[Fin 1; Fin (11/5)]], T1 [Fin Y], T1 [Fin 5; Fin 5]) /\ Y = 24.
Proof.
  destruct (make_noise 1 2 1 (3/5) 2 1 None dex dG dV dN dV) as (tY & tW & H & H2 & H3); try lra; try lia.
  - apply dex_finite.
  - rewrite frob1. unfold dN. rewrite Rabs_right; lra.
  - unfold supplied. rewrite xint_2. apply coef_ex.
  - unfold returned in H2, H3. cbn [Nat.eqb] in H2, H3. subst tY tW. eexists. split.
    + rewrite H. unfold xm, xv, tabm, tab. cbn [seq map]. destruct design_ex as [-> ->]. reflexivity.
    + cbv beta. rewrite !frob1. unfold lin_mt. rewrite !Sum_S, !Sum_0. destruct design_ex as [-> ->]. unfold dV, dN. rewrite !Rabs_right by lra. field.
Qed.
Lemma low_ex : (1/3) * INR 2 < 1. Proof. simpl. lra. Qed.

Lemma alpha_ex : compute_alpha_max xops (Mat 2 1 [[Fin 1]; [Fin 2]]) [Fin 3; Fin 4] = Ret (Fin (11/2)) /\
  py_compute_alpha_max xops (Mat 2 1 [[Fin 1]; [Fin 2]]) (T1 [Fin 3; Fin 4]) = PyRet (Fin (11/2)).
Proof.
  set (y := fun i : nat => match i with O => 3 | _ => 4 end). set (X := fun i (_ : nat) => INR (S i)).
  assert (E : maxabs 1 (xty 2 X y) / INR 2 = 11/2).
  { unfold maxabs, xty. cbn [seq map fold_left]. rewrite !Sum_S, Sum_0. unfold X, y. simpl. rewrite Rabs_right by lra. rewrite Rmax_right by lra. field. }
  pose proof (alpha_max_dense 2 1 X y ltac:(lia)) as A. pose proof (py_alpha_1 2 1 X y ltac:(lia) ltac:(lia)) as B. rewrite E in A, B. split; assumption.
Qed.
Lemma alpha_nan_ex : exists X y a, py_compute_alpha_max xops X (T1 y) = PyRet NaN /\ compute_alpha_max xops X y = Ret (Fin a).
Proof.
  destruct (alpha_nan 1 2 0 (fun _ _ => 1) (fun _ => NaN) (fun _ => 1)) as (H1 & m & _ & H2); try lia.
  - exists 0%nat. split; [lia|reflexivity].
  - do 3 eexists. split; [exact H1|exact H2].
Qed.
(** the two statements about alpha_max together *)
Lemma alpha_agree n p X y : (1 <= n)%nat -> (1 <= p)%nat -> exists m, is_largest p (fun j => Rabs (Sum n (fun i => X i j * y i))) m /\
  py_compute_alpha_max xops (xm n p X) (T1 (xv n y)) = PyRet (Fin (m / INR n)) /\ compute_alpha_max xops (xm n p X) (xv n y) = Ret (Fin (m / INR n)).
Proof.
  intros Hn Hp. exists (maxabs p (xty n X y)). split; [apply maxabs_largest|]. split; [apply py_alpha_1; auto|apply alpha_max_dense; auto].
Qed.
Lemma alpha_agree_mt n p T X Y : (1 <= n)%nat -> (1 <= p)%nat -> exists m, is_largest p (fun j => sqrt (Sum T (fun t => (Sum n (fun i => X i j * Y i t)) ^ 2))) m /\
  py_compute_alpha_max xops (xm n p X) (T2 (xm n T Y)) = PyRet (Fin (m / INR n)) /\ compute_alpha_max_mtl xops (xm n p X) (xm n T Y) = Ret (Fin (m / INR n)).
Proof.
  intros Hn Hp. exists (maxabs p (xty_norm n T X Y)). split.
  - eapply is_largest_ext; [|apply maxabs_largest]. intros j _. cbv beta. apply Rabs_right. apply Rle_ge, sqrt_pos.
  - split; [apply py_alpha_2; auto|apply alpha_max_mtl; auto].
Qed.
(** a one-column matrix of targets gives the same level as the vector *)
Lemma py_alpha_column n p X y : (1 <= n)%nat -> (1 <= p)%nat ->
  py_compute_alpha_max xops (xm n p X) (T2 (xm n 1 (fun i _ => y i))) = py_compute_alpha_max xops (xm n p X) (T1 (xv n y)).
Proof.
  intros Hn Hp. rewrite py_alpha_1, py_alpha_2 by auto. do 3 f_equal. unfold maxabs. f_equal. apply map_ext. intros j. unfold xty_norm, xty.
  rewrite Sum_S, Sum_0, Rplus_0_l. replace (Sum n (fun i => X i j * y i) ^ 2) with (Rsqr (Sum n (fun i => X i j * y i))) by (unfold Rsqr; ring).
  rewrite sqrt_Rsqr_abs. apply Rabs_Rabsolu.
Qed.
Lemma generated_fits g n p : (1 <= n)%nat -> (1 <= p)%nat -> exists X y w, generate_random_data xops (fun k => Fin (g k)) n p = Ret (xm n p X, xv n y) /\
  quad_loss n y (lin p X w) = 0.
Proof.
  intros Hn Hp. destruct (generated g n p Hp) as (X & E & _). exists X. eexists. exists (fun j => g j + if (j =? 0)%nat then 1 else 0). split; [exact E|]. unfold quad_loss. rewrite Sum_zero; [unfold Rdiv; ring|]. intros. ring.
Qed.
Lemma generated_ex : generate_random_data xops (fun k => Fin (INR (S k))) 2 1 = Ret (Mat 2 1 [[Fin 1]; [Fin 2]], [Fin 2; Fin 4]).
Proof. cbn. do 3 f_equal; [f_equal; ring|f_equal; f_equal; ring]. Qed.
Lemma all_close_lengths {F} (o : FOps F) x y delta : length x <> length y -> assert_array_all_close o x y delta = Failed.
Proof. intros H. unfold assert_array_all_close. destruct (Nat.eqb_spec (length x) (length y)); [contradiction|reflexivity]. Qed.
Lemma close_ex : assert_array_all_close xops [Fin 1; Fin 2] [Fin 1; Fin (5/2)] (Fin 1) = Passed /\
  assert_array_all_close xops [Fin 1; Fin 2] [Fin 1; Fin (5/2)] (Fin (1/4)) = Failed /\
  assert_array_all_close xops [PInf] [PInf] (Fin 1) = Failed.
Proof.
  set (x := fun i : nat => match i with O => 1 | _ => 2 end). set (y := fun i : nat => match i with O => 1 | _ => 5/2 end).
  change [Fin 1; Fin 2] with (xv 2 x). change [Fin 1; Fin (5/2)] with (xv 2 y). split; [|split].
  - apply all_close_fin. intros i Hi. destruct i as [|i]; unfold x, y; apply Rabs_le; lra.
  - destruct (assert_array_all_close xops (xv 2 x) (xv 2 y) (Fin (1/4))) eqn:E; [|reflexivity]. exfalso.
    pose proof (proj1 (all_close_fin 2 x y (1/4)) E 1%nat ltac:(lia)) as H. unfold x, y in H. rewrite Rabs_left in H by lra. lra.
  - reflexivity.
Qed.
