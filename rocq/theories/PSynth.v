(** Proofs about the synthetic data and the Python helpers: facts behind C63 to C67. *)
From Coq Require Import List ZArith Bool Arith Lia Lra Reals.
From Verif Require Import Ops Arr MUtils MDatasets MPython MPyUtils MTestHelpers XR PBase RSum SpecLin SpecData SpecDatafit SpecSynth PLin PDatafit PDataProps.
Import ListNotations.
Open Scope R_scope.

(** *** alpha_max *)
Lemma np_max_fin p f : (1 <= p)%nat -> np_max xops (map xabs (xv p f)) = PyRet (Fin (maxabs p f)).
Proof.
  intros Hp. destruct p as [|p]; [lia|]. unfold xv, tab. rewrite map_map. cbn [seq map np_max]. f_equal.
  unfold maxabs. cbn [seq map fold_left]. rewrite (Rmax_right 0) by apply Rabs_pos. cbn [xabs]. generalize (Rabs (f 0%nat)).
  induction (seq 1 p) as [|j l IH]; intros a; simpl; [reflexivity|]. apply IH.
Qed.
Lemma tmatmul_1 n p X y : np_tmatmul xops (xm n p X) (T1 (xv n y)) = PyRet (T1 (xv p (xty n X y))).
Proof.
  unfold np_tmatmul, np_matmul. cbn [mnc mrows]. change (mnr (xm n p X)) with n. unfold xv at 1. rewrite tab_length, Nat.eqb_refl.
  unfold xm. rewrite cols_tabm, map_tab. do 2 f_equal. apply tab_ext. intros j Hj. cbn [ndot xops]. apply xdot_tab.
Qed.
Lemma tmatmul_2 n p T X Y : np_tmatmul xops (xm n p X) (T2 (xm n T Y)) = PyRet (T2 (xm p T (fun j t => Sum n (fun i => X i j * Y i t)))).
Proof.
  unfold np_tmatmul, np_matmul. cbn [mnc mrows mnr]. change (mnr (xm n p X)) with n. change (mnr (xm n T Y)) with n. change (mnc (xm n T Y)) with T.
  change (mnc (xm n p X)) with p. rewrite Nat.eqb_refl. unfold xm. rewrite !cols_tabm, map_tab. do 2 f_equal. unfold tabm. f_equal. apply tab_ext. intros j Hj.
  rewrite map_tab. apply tab_ext. intros t Ht. cbn [gdot xops]. apply xdot_tab.
Qed.
Lemma py_alpha_1 n p X y : (1 <= n)%nat -> (1 <= p)%nat ->
  py_compute_alpha_max xops (xm n p X) (T1 (xv n y)) = PyRet (Fin (maxabs p (xty n X y) / INR n)).
Proof.
  intros Hn Hp. unfold py_compute_alpha_max. rewrite tmatmul_1. cbn [pybind].
  change (fabs xops) with xabs. rewrite np_max_fin by auto. cbn [pybind]. f_equal. apply xdiv_n. auto.
Qed.
Lemma py_alpha_2 n p T X Y : (1 <= n)%nat -> (1 <= p)%nat ->
  py_compute_alpha_max xops (xm n p X) (T2 (xm n T Y)) = PyRet (Fin (maxabs p (xty_norm n T X Y) / INR n)).
Proof.
  intros Hn Hp. unfold py_compute_alpha_max. rewrite tmatmul_2. cbn [pybind].
  replace (np_norm_rows xops _) with (map xabs (xv p (xty_norm n T X Y))).
  - rewrite np_max_fin by auto. cbn [pybind]. f_equal. apply xdiv_n. auto.
  - unfold np_norm_rows, xm, xv. cbn [mrows tabm]. rewrite !map_tab. apply tab_ext. intros j Hj. rewrite map_tab.
    cbn [nsum fsqrt xops]. unfold sq. cbn [fmul xops xmul]. rewrite xsum_tab, xsqrt_fin.
    + cbn [xabs]. f_equal. rewrite Rabs_right by (apply Rle_ge, sqrt_pos). unfold xty_norm. f_equal. apply Sum_ext. intros. ring.
    + apply Sum_nonneg. intros. apply Rle_0_sqr.
Qed.

Lemma xadd_nan_l x : xadd NaN x = NaN.
Proof. destruct x; reflexivity. Qed.
Lemma xadd_nan_r x : xadd x NaN = NaN.
Proof. destruct x; reflexivity. Qed.
Lemma fold_nan l : fold_left xadd l NaN = NaN.
Proof. induction l as [|a l IH]; simpl; [reflexivity|exact IH]. Qed.
Lemma xsum_nan l : In NaN l -> xsum l = NaN.
Proof.
  unfold xsum. generalize (Fin 0). induction l as [|x l IH]; intros a H; [destruct H|]. simpl. destruct H as [E|H].
  - subst x. rewrite xadd_nan_r. apply fold_nan.
  - apply IH, H.
Qed.
Lemma xdot_nan_tab n f g i : (i < n)%nat -> f i = NaN -> xdot (tab n f) (tab n g) = NaN.
Proof.
  intros Hi E. unfold xdot. rewrite map2_tab. apply xsum_nan. apply in_tab. exists i. split; auto. rewrite E. destruct (g i); reflexivity.
Qed.
Lemma np_max_nan l : In NaN l -> np_max xops l = PyRet NaN.
Proof.
  assert (K : forall l, fold_left (np_maximum xops) l NaN = NaN) by (intros q; induction q as [|b q IH]; simpl; auto; destruct b; auto).
  destruct l as [|a l]; [intros []|]. intros H. simpl. f_equal. revert a H. induction l as [|b l IH]; intros a [E|H].
  - subst. apply (K []).
  - destruct H.
  - subst. apply K.
  - simpl. destruct H as [E|H].
    + subst b. replace (np_maximum xops a NaN) with NaN by (destruct a; reflexivity). apply K.
    + apply IH. right. exact H.
Qed.

Section Nan.
Variables (n p j : nat) (X : rmat) (c : nat -> xr) (y : nat -> R).
Hypotheses (Hn : (1 <= n)%nat) (Hj : (j < p)%nat) (Hc : exists i, (i < n)%nat /\ c i = NaN).
Let M : mat xr := tabm n p (fun i k => if (k =? j)%nat then c i else Fin (X i k)).
Let v : nat -> xr := fun k => if (k =? j)%nat then NaN else Fin (xty n X y k).

Lemma nan_corr k : xdot (tab n (fun i => if (k =? j)%nat then c i else Fin (X i k))) (xv n y) = v k.
Proof.
  unfold v. destruct (k =? j)%nat eqn:E.
  - destruct Hc as (i & Hi & Ei). apply (xdot_nan_tab n c (fun i => Fin (y i)) i Hi Ei).
  - apply xdot_tab.
Qed.
Lemma nan_fold l : forall a, fold_left (fun m x => xmax (xabs x) m) (map v l) (Fin a) = Fin (fold_left Rmax (map (fun k => if (k =? j)%nat then 0 else Rabs (xty n X y k)) l) a) \/ a < 0.
Proof.
  induction l as [|k l IH]; intros a; simpl; [auto|]. unfold v at 2. destruct (k =? j)%nat.
  - cbn [xabs xmax]. destruct (Rlt_dec a 0); auto. left. rewrite (Rmax_left a 0) by lra. destruct (IH a); [auto|lra].
  - cbn [xabs xmax]. rewrite Rmax_comm. destruct (IH (Rmax a (Rabs (xty n X y k)))); [left; auto|right].
    pose proof (Rmax_l a (Rabs (xty n X y k))). lra.
Qed.
Lemma alpha_nan : py_compute_alpha_max xops M (T1 (xv n y)) = PyRet NaN /\
  exists m, is_largest p (fun k => if (k =? j)%nat then 0 else Rabs (Sum n (fun i => X i k * y i))) m /\
    compute_alpha_max xops M (xv n y) = Ret (Fin (m / INR n)).
Proof.
  split.
  - unfold py_compute_alpha_max, np_tmatmul, np_matmul. cbn [mnc mrows]. change (mnr M) with n. unfold xv at 1. rewrite tab_length, Nat.eqb_refl.
    unfold M at 1. rewrite cols_tabm, map_tab. cbn [pybind]. rewrite np_max_nan; [reflexivity|].
    rewrite map_tab. apply in_tab. exists j. split; auto. cbn [ndot xops]. rewrite nan_corr. unfold v. rewrite Nat.eqb_refl. reflexivity.
  - exists (maxabs p (fun k => if (k =? j)%nat then 0 else xty n X y k)). split.
    + eapply is_largest_ext; [|apply maxabs_largest]. intros k Hk. cbv beta. destruct (k =? j)%nat; [apply Rabs_R0|reflexivity].
    + unfold compute_alpha_max, mtv. change (mnr M) with n. unfold xv at 1. rewrite tab_length, Nat.eqb_refl. cbn [bind].
      unfold M at 1. rewrite cols_tabm, map_tab. f_equal. rewrite (tab_ext p _ v) by (intros; cbn [ndot xops]; apply nan_corr).
      change (f0 xops) with (Fin 0). change (fmax xops) with xmax. change (fabs xops) with xabs. unfold tab. destruct (nan_fold (seq 0 p) 0) as [E|]; [|lra]. rewrite E.
      change (fdiv xops) with xdiv. change (fcast xops n) with (xcast n). rewrite xdiv_n by auto. do 3 f_equal. unfold maxabs. f_equal.
      apply map_ext. intros k. destruct (k =? j)%nat; [rewrite Rabs_R0|]; reflexivity.
Qed.
End Nan.
Lemma alpha_no_features n y : (1 <= n)%nat ->
  py_compute_alpha_max xops (xm n 0 (fun _ _ => 0)) (T1 (xv n y)) = PyRaise ValueErr /\
  compute_alpha_max xops (xm n 0 (fun _ _ => 0)) (xv n y) = Ret (Fin 0).
Proof.
  intros Hn. split.
  - unfold py_compute_alpha_max. rewrite tmatmul_1. reflexivity.
  - rewrite alpha_max_dense by auto. do 2 f_equal. unfold maxabs. simpl. unfold Rdiv. ring.
Qed.

(** *** the design *)
Fixpoint arC (corr sigma : R) (j l : nat) : R :=
  match j with
  | O => if (l =? 0)%nat then 1 else 0
  | S j' => if (l =? S j')%nat then sigma else corr * arC corr sigma j' l
  end.
Section AR.
Variables (corr sigma : R).
Hypothesis (Hs : corr ^ 2 + sigma ^ 2 = 1).
Lemma arC_upper j : forall l, (j < l)%nat -> arC corr sigma j l = 0.
Proof.
  induction j as [|j IH]; intros l Hl; simpl.
  - destruct (Nat.eqb_spec l 0); [lia|auto].
  - destruct (Nat.eqb_spec l (S j)); [lia|]. rewrite IH by lia. ring.
Qed.
Lemma arC_step q j k : (S j < q)%nat -> Sum q (fun l => arC corr sigma (S j) l * arC corr sigma k l) =
  corr * Sum q (fun l => arC corr sigma j l * arC corr sigma k l) + sigma * arC corr sigma k (S j).
Proof.
  intros H. rewrite <- Sum_scal.
  rewrite (Sum_upd q (fun l => arC corr sigma (S j) l * arC corr sigma k l) (fun l => corr * (arC corr sigma j l * arC corr sigma k l)) (S j)); auto.
  - cbn [arC]. rewrite Nat.eqb_refl. rewrite (arC_upper j (S j)) by lia. ring.
  - intros l _ Hl. cbn [arC]. destruct (Nat.eqb_spec l (S j)); [lia|]. ring.
Qed.
Lemma arC_inner q j : (j < q)%nat -> forall k, (k <= j)%nat -> Sum q (fun l => arC corr sigma j l * arC corr sigma k l) = corr ^ (j - k).
Proof.
  induction j as [|j IH]; intros Hj k Hk.
  - assert (k = 0%nat) by lia. subst k. rewrite (Sum_single q _ 0%nat); [simpl; ring|lia|].
    intros l _ Hl. simpl. destruct (Nat.eqb_spec l 0); [lia|ring].
  - destruct (Nat.eq_dec k (S j)) as [->|Hne].
    + rewrite arC_step by lia. rewrite (Sum_ext q _ (fun l => arC corr sigma (S j) l * arC corr sigma j l)) by (intros; ring).
      rewrite arC_step by lia. rewrite IH by lia. rewrite (arC_upper j (S j)) by lia. cbn [arC]. rewrite Nat.eqb_refl.
      rewrite !Nat.sub_diag. simpl. simpl in Hs. lra.
    + rewrite arC_step by lia. rewrite IH by lia. rewrite (arC_upper k (S j)) by lia. replace (S j - k)%nat with (S (j - k)) by lia. simpl. ring.
Qed.
Lemma arC_toeplitz q j k : (j < q)%nat -> (k < q)%nat -> Sum q (fun l => arC corr sigma j l * arC corr sigma k l) = corr ^ distance j k.
Proof.
  intros Hj Hk. unfold distance. destruct (Nat.le_gt_cases k j) as [H|H].
  - rewrite arC_inner by lia. f_equal. lia.
  - rewrite (Sum_ext q _ (fun l => arC corr sigma k l * arC corr sigma j l)) by (intros; ring). rewrite arC_inner by lia. f_equal. lia.
Qed.
(** the recursion of the columns *)
Lemma arC_next q (g : nat -> R) j : (S j < q)%nat -> Sum q (fun l => arC corr sigma (S j) l * g l) = Sum q (fun l => arC corr sigma j l * g l) * corr + sigma * g (S j).
Proof.
  intros H. rewrite <- Sum_scal_r.
  rewrite (Sum_upd q (fun l => arC corr sigma (S j) l * g l) (fun l => arC corr sigma j l * g l * corr) (S j)); auto.
  - cbn [arC]. rewrite Nat.eqb_refl. rewrite (arC_upper j (S j)) by lia. ring.
  - intros l _ Hl. cbn [arC]. destruct (Nat.eqb_spec l (S j)); [lia|]. ring.
Qed.
Variables (n p : nat) (G : rmat) (g : nat -> nat -> xr).
Hypothesis (Hg : forall j i, g j i = Fin (G j i)).
Let col (j i : nat) : R := Sum p (fun l => arC corr sigma j l * G l i).
Lemma ar_columns_fin k : forall j, (j + k < p)%nat ->
  ar_columns xops (Fin corr) (Fin sigma) n (xv n (col j)) g (S j) k = tab k (fun m => xv n (col (S j + m))).
Proof.
  induction k as [|k IH]; intros j H; [reflexivity|]. cbn [ar_columns].
  assert (E : map2 (fadd xops) (map (fun u => fmul xops u (Fin corr)) (xv n (col j))) (map (fmul xops (Fin sigma)) (randn n (g (S j)))) = xv n (col (S j))).
  { unfold randn. change (map (g (S j)) (seq 0 n)) with (tab n (g (S j))). unfold xv. rewrite !map_tab, map2_tab. apply tab_ext. intros i Hi.
    rewrite Hg. cbn. f_equal. unfold col. rewrite (arC_next p (fun l => G l i)) by lia. reflexivity. }
  rewrite E. rewrite IH by lia. unfold tab. cbn [seq map]. f_equal; [f_equal; f_equal; lia|].
  rewrite <- seq_shift, map_map. apply map_ext. intros m. do 2 f_equal. lia.
Qed.
End AR.

Definition design_of (corr : R) (p : nat) (G : rmat) : rmat := fun i j => Sum p (fun l => arC corr (sqrt (1 - corr ^ 2)) j l * G l i).
Lemma design_fin corr n p G g : 0 <= corr < 1 -> (1 <= p)%nat -> (forall j i, g j i = Fin (G j i)) ->
  py_design xops n p (Fin corr) g = PyRet (xm n p (design_of corr p G)).
Proof.
  intros Hc Hp Hg. unfold py_design. change (feq xops (Fin corr) (f0 xops)) with (Reqb corr 0). destruct (Reqb corr 0) eqn:E.
  - apply Reqb_spec in E. subst corr. f_equal. unfold randn2, randn, xm, tabm. f_equal.
    change (map (fun i => map (fun j => g j i) (seq 0 p)) (seq 0 n)) with (tab n (fun i => tab p (fun j => g j i))).
    apply tab_ext. intros i Hi. apply tab_ext. intros j Hj. rewrite Hg. f_equal. unfold design_of.
    replace (1 - 0 ^ 2) with 1 by ring. rewrite sqrt_1. rewrite (Sum_single p _ j Hj).
    + destruct j; simpl; [ring|]. rewrite Nat.eqb_refl. ring.
    + intros l _ Hl. destruct j as [|j]; cbn [arC]; [destruct (Nat.eqb_spec l 0); [lia|ring]|]. destruct (Nat.eqb_spec l (S j)); [lia|ring].
  - destruct (Nat.eqb_spec p 0); [lia|]. f_equal. cbn [fsqrt fsub f1 xops].
    assert (S1 : 0 <= 1 - corr ^ 2) by nra.
    assert (Sg : xsqrt (xsub (Fin 1) (sq xops (Fin corr))) = Fin (sqrt (1 - corr ^ 2))).
    { unfold sq. cbn [fmul xops xmul xsub]. replace (1 - corr * corr) with (1 - corr ^ 2) by ring. apply xsqrt_fin. auto. }
    rewrite Sg. set (sigma := sqrt (1 - corr ^ 2)).
    assert (U0 : randn n (g 0%nat) = xv n (fun i => Sum p (fun l => arC corr sigma 0 l * G l i))).
    { unfold randn, xv. change (map (g 0%nat) (seq 0 n)) with (tab n (g 0%nat)). apply tab_ext. intros i Hi. rewrite Hg. f_equal.
      rewrite (Sum_single p _ 0%nat); [simpl; ring|lia|]. intros l _ Hl. simpl. destruct (Nat.eqb_spec l 0); [lia|ring]. }
    rewrite U0, (ar_columns_fin corr sigma n p G g Hg (p - 1) 0) by lia.
    unfold xm, tabm. f_equal. change (map ?f (seq 0 n)) with (tab n f). apply tab_ext. intros i Hi.
    assert (Tb : forall f : nat -> xr, tab p f = f 0%nat :: tab (p - 1) (fun m => f (S m))).
    { intros f. destruct p as [|q]; [lia|]. replace (S q - 1)%nat with q by lia. unfold tab. cbn [seq map]. f_equal. rewrite <- seq_shift, map_map. reflexivity. }
    rewrite Tb. cbn [map]. f_equal.
    + unfold xv. rewrite nth_tab by auto. reflexivity.
    + rewrite map_tab. apply tab_ext. intros m Hm. unfold xv. rewrite nth_tab by auto. reflexivity.
Qed.
