(** Datafits refine their mathematical meaning (dense and sparse), exact arithmetic. *)
From Coq Require Import List ZArith Bool Arith Reals Lra Lia.
From Verif Require Import Ops Arr MUtils MDatasets MDatafits MDatafitsMT XR PBase RSum SpecLin PLin SpecData PPenVal PData.
Import ListNotations.
Open Scope R_scope.

(** gradients and curvature bounds as functions of the model fit *)
Definition gq (n : nat) (X Y Z : rmat) (j t : nat) : R :=
  (Sum n (fun i => X i j * Z i t) - Sum n (fun i => X i j * Y i t)) / INR n.
Definition Lq (n : nat) (X : rmat) (j : nat) : R := Sum n (fun i => X i j * X i j) / INR n.
Definition sig (x : R) : R := 1 / (1 + exp (- x)).
Definition gl (n : nat) (X : rmat) (y : nat -> R) (Z : rmat) (j : nat) : R :=
  - Sum n (fun i => X i j * (y i * sig (- y i * Z i 0%nat))) / INR n.
Definition Ll (n : nat) (X : rmat) (j : nat) : R := Sum n (fun i => X i j * X i j) / (4 * INR n).
(** sparse step sizes: sum of the squares of the stored entries *)
Definition sqs (E : nat -> list (nat * R)) (j : nat) : R := Rsum (map (fun e => snd e * snd e) (E j)).

Record df_ok {DM D} (df : Datafit xr DM D) (d : D) (ds : dataset DM xr) (n p : nat)
    (f : rmat -> R) (g : rmat -> nat -> nat -> R) (L : nat -> R) : Prop := {
  df_ok_value : forall Z, df_value df d ds (xv n (fun i => Z i 0%nat)) = Ret (Fin (f Z));
  df_ok_grad : forall Z j, (j < p)%nat ->
    df_gradient_j df d ds (xv n (fun i => Z i 0%nat)) j = Ret (Fin (g Z j 0%nat));
  df_ok_full : forall Z, df_full_grad df d ds (xv n (fun i => Z i 0%nat)) = Ret (xv p (fun j => g Z j 0%nat));
  df_ok_step : df_step_size df d = xv p L
}.
Record dfm_ok {DM D} (df : DatafitMT xr DM D) (d : D) (ds : dataset DM xr) (n p T : nat)
    (f : rmat -> R) (g : rmat -> nat -> nat -> R) (L : nat -> R) : Prop := {
  dfm_ok_value : forall Z, dfm_value df d ds (xm n T Z) = Ret (Fin (f Z));
  dfm_ok_grad : forall Z j, (j < p)%nat -> dfm_gradient_j df d ds (xm n T Z) j = Ret (xv T (g Z j));
  dfm_ok_full : forall Z, dfm_full_grad df d ds (xm n T Z) = Ret (xm p T (g Z));
  dfm_ok_step : dfm_step_size df d = xv p L
}.

Lemma INR2n n : INR (2 * n) = 2 * INR n.
Proof. rewrite mult_INR. simpl. lra. Qed.
Lemma INR4n n : INR (4 * n) = 4 * INR n.
Proof. rewrite mult_INR. simpl. lra. Qed.
Lemma INR_n0 n : (1 <= n)%nat -> INR n <> 0.
Proof. intros. apply not_0_INR. lia. Qed.
Lemma INR_npos n : (1 <= n)%nat -> 0 < INR n.
Proof. intros. apply lt_0_INR. lia. Qed.

Section Q.
Context (n p : nat) (X : rmat) (Hn : (1 <= n)%nat).

Lemma vdot_xv m a b : vdot xops (xv m a) (xv m b) = Ret (Fin (Sum m (fun i => a i * b i))).
Proof. unfold vdot. rewrite !xv_length, Nat.eqb_refl. cbn [ndot xops]. unfold xv. rewrite xdot_tab. reflexivity. Qed.
Lemma xdiv_n a : fdiv xops (Fin a) (fcast xops n) = Fin (a / INR n).
Proof. cbn [fdiv fcast xops]. unfold xcast. apply xdiv_fin. apply INR_n0; auto. Qed.
Lemma xdiv_2n a : fdiv xops (Fin a) (fcast xops (2 * n)) = Fin (a / (2 * INR n)).
Proof. cbn [fdiv fcast xops]. unfold xcast. rewrite INR2n. apply xdiv_fin. pose proof (INR_npos n Hn). lra. Qed.
Lemma xdiv_4n a : fdiv xops (Fin a) (fcast xops (4 * n)) = Fin (a / (4 * INR n)).
Proof. cbn [fdiv fcast xops]. unfold xcast. rewrite INR4n. apply xdiv_fin. pose proof (INR_npos n Hn). lra. Qed.

Lemma quad_value_fin {DM} d (D : DM) t y Z : single_target_of n y t ->
  quad_value xops d (Dataset D t) (xv n (fun i => Z i 0%nat)) = Ret (Fin (quad_loss_mt n 1 (fun i _ => y i) Z)).
Proof.
  intros Ht. unfold quad_value. cbn [dtargets]. cbv zeta. rewrite (target_n n y t Ht).
  change (f0 xops) with (Fin 0). rewrite (target_single n y t Ht). cbn [bind].
  unfold vsub, vbin. rewrite !xv_length, Nat.eqb_refl. cbn [bind]. unfold xv at 1 2 3 4. rewrite map2_tab.
  change (tab n (fun i => fsub xops (Fin (y i)) (Fin (Z i 0%nat)))) with (xv n (fun i => y i - Z i 0%nat)).
  rewrite vdot_xv. cbn [bind]. rewrite xdiv_2n. unfold quad_loss_mt. do 3 f_equal. apply Sum_ext. intros i Hi.
  rewrite Sum_S, Sum_0. ring.
Qed.

Lemma quad_dense_init t y d : single_target_of n y t ->
  quad_dense_initialize xops d (Dataset (xm n p X) t)
  = Ret (Quad (xv p (Lq n X)) (xv p (fun j => Sum n (fun i => X i j * y i)))).
Proof.
  intros Ht. unfold quad_dense_initialize. cbn [dtargets design_matrix]. cbv zeta. rewrite (target_n n y t Ht).
  change (f0 xops) with (Fin 0). rewrite (target_single n y t Ht). cbn [bind]. unfold mtv. rewrite xv_length.
  change (mnr (xm n p X)) with n. rewrite Nat.eqb_refl. change (f0 xops) with (Fin 0). unfold xm. rewrite cols_tabm. cbn [bind].
  rewrite !map_tab. f_equal. f_equal.
  - apply tab_ext. intros j Hj. cbn [ndot xops]. rewrite xdot_tab. apply xdiv_n.
  - apply tab_ext. intros j Hj. cbn [ndot xops]. unfold xv. rewrite xdot_tab. reflexivity.
Qed.
Lemma quad_dense_grad t y Z j L : single_target_of n y t -> (j < p)%nat ->
  quad_dense_gradient_j xops (Quad L (xv p (fun j => Sum n (fun i => X i j * y i)))) (Dataset (xm n p X) t)
    (xv n (fun i => Z i 0%nat)) j = Ret (Fin (gq n X (fun i _ => y i) Z j 0%nat)).
Proof.
  intros Ht Hj. unfold quad_dense_gradient_j. cbn [dtargets design_matrix]. cbv zeta. rewrite (target_n n y t Ht).
  unfold xm. rewrite mcol_tabm by auto. cbn [bind].
  change (tab n (fun i => Fin (X i j))) with (xv n (fun i => X i j)). rewrite vdot_xv. cbn [bind q_Xty].
  rewrite vget_xv by auto. cbn [bind]. cbn [fsub xops xsub]. rewrite xdiv_n. reflexivity.
Qed.
Lemma quad_dense_ok t y d : single_target_of n y t ->
  exists d', df_initialize (quad_dense xops) d (Dataset (xm n p X) t) = Ret d' /\
    df_ok (quad_dense xops) d' (Dataset (xm n p X) t) n p
      (quad_loss_mt n 1 (fun i _ => y i)) (gq n X (fun i _ => y i)) (Lq n X).
Proof.
  intros Ht. eexists. split; [exact (quad_dense_init t y d Ht)|]. constructor.
  - intros Z. apply quad_value_fin. auto.
  - intros Z j Hj. apply quad_dense_grad; auto.
  - intros Z. cbn [quad_dense df_full_grad]. unfold quad_dense_full_grad. cbn [design_matrix xm tabm mnc].
    apply mapM_seq. intros j Hj. apply quad_dense_grad; auto.
  - reflexivity.
Qed.
End Q.

Section QS.
Context (n p : nat) (E : nat -> list (nat * R)) (c : csc xr) (Hn : (1 <= n)%nat) (HC : csc_of n p E c).
Let Hcol : forall j, (j < p)%nat -> csc_col c j (E j).
Proof. intros j Hj. apply HC. auto. Qed.
Let Hrow : forall j e, (j < p)%nat -> In e (E j) -> (fst e < n)%nat.
Proof. intros j e Hj. apply HC. auto. Qed.
Let Hnf : csc_n_features c = Ret p.
Proof. unfold csc_n_features. rewrite (proj1 HC). reflexivity. Qed.

(** the scalar loop [acc += x * v[i]] *)
Lemma acc_loop (f : xr -> Z -> res xr) v j : (j < p)%nat ->
  (forall s z e, In e (E j) -> vgetz (cindices c) z = Ret (Z.of_nat (fst e)) -> vgetz (cdata c) z = Ret (Fin (snd e)) ->
     f (Fin s) z = Ret (Fin (s + snd e * v (fst e)))) ->
  bind (csc_range c j) (fun r => foldM f r (Fin 0)) = Ret (Fin (Sum n (fun i => entry E i j * v i))).
Proof.
  intros Hj H. rewrite (col_loop Fin c j (E j) f (fun s e => s + snd e * v (fst e)) (Hcol j Hj) H 0).
  rewrite (fold_sum (fun e => snd e * v (fst e))), (entry_sum n p E c j v HC Hj). do 2 f_equal. ring.
Qed.

Lemma quad_sparse_init t y d : single_target_of n y t ->
  quad_sparse_initialize xops d (Dataset c t)
  = Ret (Quad (xv p (fun j => sqs E j / INR n)) (xv p (fun j => Sum n (fun i => entry E i j * y i)))).
Proof.
  intros Ht. unfold quad_sparse_initialize. cbn [dtargets design_matrix]. cbv zeta. rewrite (target_n n y t Ht), Hnf.
  change (f0 xops) with (Fin 0). cbn [bind]. rewrite (target_single n y t Ht). cbn [bind].
  rewrite (mapM_seq _ p (fun j => (Fin (sqs E j / INR n), Fin (Sum n (fun i => entry E i j * y i))))).
  - cbn [bind]. rewrite !map_tab. reflexivity.
  - intros j Hj. rewrite <- bind_assoc.
    rewrite (col_loop (fun q => (Fin (fst q), Fin (snd q))) c j (E j) _
               (fun q e => (fst q + snd e * snd e, snd q + snd e * y (fst e))) (Hcol j Hj)) with (s := (0, 0)).
    + cbn [bind]. rewrite xdiv_n by auto. f_equal.
      assert (G : forall l q, fold_left (fun (q : R * R) (e : nat * R) => (fst q + snd e * snd e, snd q + snd e * y (fst e))) l q
         = (fst q + Rsum (map (fun e => snd e * snd e) l), snd q + Rsum (map (fun e => snd e * y (fst e)) l))).
      { induction l as [|e l IH]; intros [q1 q2]; simpl; [unfold Rsum; simpl; f_equal; lra|].
        rewrite IH. unfold Rsum. simpl. f_equal; lra. }
      rewrite G. cbn [fst snd]. rewrite (entry_sum n p E c j y HC Hj). unfold sqs. do 2 f_equal; [f_equal|]; ring.
    + intros [q1 q2] z e He H1 H2. rewrite H2. cbn [bind]. rewrite H1. cbn [bind].
      rewrite vgetz_xv by (apply (Hrow j); auto). reflexivity.
Qed.
Lemma quad_sparse_grad t y Z j L : single_target_of n y t -> (j < p)%nat ->
  quad_sparse_gradient_j xops (Quad L (xv p (fun j => Sum n (fun i => entry E i j * y i)))) (Dataset c t)
    (xv n (fun i => Z i 0%nat)) j = Ret (Fin (gq n (entry E) (fun i _ => y i) Z j 0%nat)).
Proof.
  intros Ht Hj. unfold quad_sparse_gradient_j. cbn [dtargets design_matrix]. cbv zeta. rewrite (target_n n y t Ht).
  change (f0 xops) with (Fin 0). rewrite <- bind_assoc. rewrite (acc_loop _ (fun i => Z i 0%nat) j Hj).
  - cbn [bind q_Xty]. rewrite vget_xv by auto. cbn [bind]. cbn [fsub xops xsub]. rewrite xdiv_n by auto. reflexivity.
  - intros s z e He H1 H2. rewrite H2. cbn [bind]. rewrite H1. cbn [bind].
    rewrite vgetz_xv by (apply (Hrow j); auto). reflexivity.
Qed.
Lemma quad_sparse_ok t y d : single_target_of n y t ->
  exists d', df_initialize (quad_sparse xops) d (Dataset c t) = Ret d' /\
    df_ok (quad_sparse xops) d' (Dataset c t) n p
      (quad_loss_mt n 1 (fun i _ => y i)) (gq n (entry E) (fun i _ => y i)) (fun j => sqs E j / INR n).
Proof.
  intros Ht. eexists. split; [exact (quad_sparse_init t y d Ht)|]. constructor.
  - intros Z. apply quad_value_fin; auto.
  - intros Z j Hj. apply quad_sparse_grad; auto.
  - intros Z. cbn [quad_sparse df_full_grad]. unfold quad_sparse_full_grad. cbn [design_matrix]. rewrite Hnf. cbn [bind].
    apply mapM_seq. intros j Hj. apply quad_sparse_grad; auto.
  - reflexivity.
Qed.
End QS.

(** *** logistic *)
Lemma sigmoid_fin x : sigmoid xops (Fin x) = Fin (sig x).
Proof.
  unfold sigmoid, sig. cbn [fneg fexp fadd fdiv f1 xops xopp xexp xadd]. apply xdiv_fin. pose proof (exp_pos (- x)). lra.
Qed.
Lemma log1p_fin x : flog xops (fadd xops (f1 xops) (fexp xops (Fin x))) (fe xops) = Fin (ln (1 + exp x)).
Proof.
  cbn [flog fadd f1 fexp fe xops xexp xadd]. unfold xlog, xe. cbn [xln]. pose proof (exp_pos x). pose proof (exp_pos 1).
  rewrite !(proj2 (Rltb_spec _ _)) by lra. rewrite ln_exp, xdiv_fin by lra. f_equal. field.
Qed.
Definition logloss (n : nat) (y : nat -> R) (Z : rmat) : R := logistic_loss n y (fun i => Z i 0%nat).
Definition glT (n : nat) (X : rmat) (y : nat -> R) (Z : rmat) (j t : nat) : R := gl n X y Z j.

Lemma log_value_fin {DM} n (D : DM) t y d Z : (1 <= n)%nat -> single_target_of n y t ->
  log_value xops d (Dataset D t) (xv n (fun i => Z i 0%nat)) = Ret (Fin (logloss n y Z)).
Proof.
  intros Hn Ht. unfold log_value. cbn [dtargets]. change (f0 xops) with (Fin 0). rewrite (target_single n y t Ht). cbn [bind].
  rewrite xv_length. unfold xv. rewrite map2_tab.
  rewrite (tab_ext _ _ (fun i => Fin (ln (1 + exp (- (y i * Z i 0%nat)))))).
  - cbn [isum xops]. rewrite xsum_tab, xdiv_n by auto. reflexivity.
  - intros i Hi. cbn [fneg fmul xops xopp xmul]. rewrite (log1p_fin (- Z i 0%nat * y i)). do 4 f_equal. ring.
Qed.
Lemma log_dense_grad n p X t y d Z j : (1 <= n)%nat -> single_target_of n y t -> (j < p)%nat ->
  log_dense_gradient_j xops d (Dataset (xm n p X) t) (xv n (fun i => Z i 0%nat)) j = Ret (Fin (glT n X y Z j 0)).
Proof.
  intros Hn Ht Hj. unfold log_dense_gradient_j. cbn [dtargets design_matrix]. change (f0 xops) with (Fin 0).
  rewrite (target_single n y t Ht). cbn [bind]. cbv zeta. unfold xm. rewrite mcol_tabm by auto. cbn [bind].
  rewrite xv_length. unfold xv. rewrite map2_tab.
  rewrite (tab_ext n (fun i => fmul xops (Fin (y i)) _) (fun i => Fin (y i * sig (- y i * Z i 0%nat)))).
  - change (tab n (fun i => Fin (X i j))) with (xv n (fun i => X i j)).
    change (tab n (fun i => Fin (y i * sig (- y i * Z i 0%nat)))) with (xv n (fun i => y i * sig (- y i * Z i 0%nat))).
    rewrite vdot_xv. cbn [bind fneg xops xopp]. rewrite xdiv_n by auto. reflexivity.
  - intros i Hi. change (fmul xops (fneg xops (Fin (y i))) (Fin (Z i 0%nat))) with (Fin (- y i * Z i 0%nat)).
    rewrite sigmoid_fin. reflexivity.
Qed.
Lemma log_dense_ok n p X t y d : (1 <= n)%nat -> single_target_of n y t ->
  exists d', df_initialize (log_dense xops) d (Dataset (xm n p X) t) = Ret d' /\
    df_ok (log_dense xops) d' (Dataset (xm n p X) t) n p (logloss n y) (glT n X y) (Ll n X).
Proof.
  intros Hn Ht. exists (Logi (xv p (Ll n X))). split.
  - cbn [log_dense df_initialize]. unfold log_dense_initialize. cbn [dtargets design_matrix]. cbv zeta.
    rewrite (target_n n y t Ht). unfold xm. rewrite cols_tabm, map_tab. do 2 f_equal. apply tab_ext. intros j Hj.
    cbn [ndot xops]. rewrite xdot_tab. apply xdiv_4n. auto.
  - constructor.
    + intros Z. apply log_value_fin; auto.
    + intros Z j Hj. apply log_dense_grad; auto.
    + intros Z. cbn [log_dense df_full_grad]. unfold log_dense_full_grad. cbn [design_matrix xm tabm mnc].
      apply mapM_seq. intros j Hj. apply log_dense_grad; auto.
    + reflexivity.
Qed.
Lemma log_sparse_grad n p E c t y d Z j : (1 <= n)%nat -> csc_of n p E c -> single_target_of n y t -> (j < p)%nat ->
  log_sparse_gradient_j xops d (Dataset c t) (xv n (fun i => Z i 0%nat)) j = Ret (Fin (glT n (entry E) y Z j 0)).
Proof.
  intros Hn HC Ht Hj. unfold log_sparse_gradient_j. cbn [dtargets design_matrix]. change (f0 xops) with (Fin 0). cbv zeta.
  rewrite (target_single n y t Ht), (target_n n y t Ht). cbn [bind].
  assert (Hc : csc_col c j (E j)) by (apply HC; auto).
  rewrite (col_loop Fin c j (E j) _ (fun s e => s + snd e * (- (y (fst e) * sig (- y (fst e) * Z (fst e) 0%nat) / INR n))) Hc).
  - rewrite (fold_sum (fun e => snd e * (- (y (fst e) * sig (- y (fst e) * Z (fst e) 0%nat) / INR n)))).
    rewrite (entry_sum n p E c j (fun i => - (y i * sig (- y i * Z i 0%nat) / INR n)) HC Hj).
    unfold glT, gl. rewrite Rplus_0_l. do 2 f_equal. rewrite Ropp_div, <- Sum_div, <- Sum_opp.
    apply Sum_ext. intros i Hi. unfold Rdiv. ring.
  - intros s z e He H1 H2. assert (Hr : (fst e < n)%nat) by (destruct HC as [_ HC]; apply (HC j Hj); auto).
    rewrite H2. cbn [bind]. rewrite H1. cbn [bind]. rewrite vgetz_xv by auto. cbn [bind].
    rewrite (vgetz_xv n (fun i => Z i 0%nat)) by auto. cbn [bind].
    change (fmul xops (fneg xops (Fin (y (fst e)))) (Fin (Z (fst e) 0%nat))) with (Fin (- y (fst e) * Z (fst e) 0%nat)).
    rewrite sigmoid_fin. cbn [fmul xops xmul]. rewrite xdiv_n by auto. cbn [fsub xops xsub]. do 2 f_equal. unfold Rdiv. ring.
Qed.
Lemma log_sparse_ok n p E c t y d : (1 <= n)%nat -> csc_of n p E c -> single_target_of n y t ->
  exists d', df_initialize (log_sparse xops) d (Dataset c t) = Ret d' /\
    df_ok (log_sparse xops) d' (Dataset c t) n p (logloss n y) (glT n (entry E) y) (fun j => sqs E j / (4 * INR n)).
Proof.
  intros Hn HC Ht. assert (Hnf : csc_n_features c = Ret p) by (unfold csc_n_features; rewrite (proj1 HC); reflexivity).
  exists (Logi (xv p (fun j => sqs E j / (4 * INR n)))). split.
  - cbn [log_sparse df_initialize]. unfold log_sparse_initialize. cbn [dtargets design_matrix]. cbv zeta.
    rewrite (target_n n y t Ht), Hnf. cbn [bind]. change (f0 xops) with (Fin 0).
    rewrite (mapM_seq _ p (fun j => Fin (sqs E j / (4 * INR n)))); [reflexivity|].
    intros j Hj. rewrite <- bind_assoc. assert (Hc : csc_col c j (E j)) by (apply HC; auto).
    rewrite (col_loop Fin c j (E j) _ (fun s e => s + snd e * snd e) Hc).
    + rewrite (fold_sum (fun e : nat * R => snd e * snd e)). cbn [bind]. rewrite xdiv_4n by auto. unfold sqs. do 3 f_equal. ring.
    + intros s z e He H1 H2. rewrite H2. reflexivity.
  - constructor.
    + intros Z. apply log_value_fin; auto.
    + intros Z j Hj. apply log_sparse_grad with (p := p); auto.
    + intros Z. cbn [log_sparse df_full_grad]. unfold log_sparse_full_grad. cbn [design_matrix]. rewrite Hnf. cbn [bind].
      apply mapM_seq. intros j Hj. apply log_sparse_grad with (p := p); auto.
    + reflexivity.
Qed.

(** *** multi-task quadratic *)
Lemma concat_sum n T (h : rmat) : Rsum (concat (tab n (fun i => tab T (h i)))) = Sum n (fun i => Sum T (h i)).
Proof.
  unfold Sum at 1. unfold tab at 1 3. induction (seq 0 n) as [|i l IH]; simpl; auto. rewrite Rsum_app, IH. unfold Rsum at 3. simpl.
  reflexivity.
Qed.
Lemma map_concat_tab {A B} (g : A -> B) n T (h : nat -> nat -> A) :
  map g (concat (tab n (fun i => tab T (h i)))) = concat (tab n (fun i => tab T (fun t => g (h i t)))).
Proof. rewrite concat_map, map_tab. f_equal. apply tab_ext. intros. apply map_tab. Qed.

Lemma qmt_value_fin {DM} n T (D : DM) t Y d Z : (1 <= n)%nat -> multi_target_of n T Y t ->
  qmt_value xops d (Dataset D t) (xm n T Z) = Ret (Fin (quad_loss_mt n T Y Z)).
Proof.
  intros Hn Ht. destruct (target_mt_n n T Y t Ht) as (H1 & H2 & H3). unfold qmt_value. cbn [dtargets]. cbv zeta.
  rewrite H1, H3. unfold msub. cbn [xm tabm mnr mnc mrows]. rewrite !Nat.eqb_refl. cbn [andb bind mrows].
  rewrite map2_tab. rewrite (tab_ext _ _ (fun i => tab T (fun t => Fin (Y i t - Z i t)))) by (intros; apply map2_tab).
  rewrite map_concat_tab. unfold sq. cbn [fmul xops xmul isum].
  rewrite <- (map_concat_tab Fin n T (fun i t => (Y i t - Z i t) * (Y i t - Z i t))).
  rewrite xsum_fin, concat_sum, xdiv_2n by auto. unfold quad_loss_mt. do 3 f_equal. apply Sum_ext. intros. apply Sum_ext. intros. ring.
Qed.
Lemma gq_row n T X Y Z j (L : list xr) p : (1 <= n)%nat -> (j < p)%nat ->
  bind (mrow (qm_XtY (QuadMT L (xm p T (fun j t => Sum n (fun i => X i j * Y i t))))) j) (fun b =>
   bind (vsub xops (xv T (fun t => Sum n (fun i => X i j * Z i t))) b) (fun r => Ret (map (fun v => fdiv xops v (fcast xops n)) r)))
  = Ret (xv T (gq n X Y Z j)).
Proof.
  intros Hn Hj. cbn [qm_XtY]. unfold xm. rewrite mrow_tabm by auto. cbn [bind]. unfold vsub, vbin.
  rewrite xv_length, tab_length, Nat.eqb_refl. unfold xv at 1. rewrite map2_tab. cbn [bind]. rewrite map_tab. f_equal.
  apply tab_ext. intros t Ht. cbn [fsub xops xsub]. rewrite xdiv_n by auto. reflexivity.
Qed.
Lemma qmt_dense_ok n p T X t Y d : (1 <= n)%nat -> multi_target_of n T Y t ->
  exists d', dfm_initialize (qmt_dense xops) d (Dataset (xm n p X) t) = Ret d' /\
    dfm_ok (qmt_dense xops) d' (Dataset (xm n p X) t) n p T (quad_loss_mt n T Y) (gq n X Y) (Lq n X).
Proof.
  intros Hn Ht. destruct (target_mt_n n T Y t Ht) as (H1 & H2 & H3).
  exists (QuadMT (xv p (Lq n X)) (xm p T (fun j t => Sum n (fun i => X i j * Y i t)))). split.
  - cbn [qmt_dense dfm_initialize]. unfold qmt_dense_initialize. cbn [dtargets design_matrix]. cbv zeta. rewrite H1, H3.
    unfold mtm. change (mnr (xm n p X)) with n. change (mnr (xm n T Y)) with n. change (mnc (xm n p X)) with p. change (mnc (xm n T Y)) with T.
    rewrite Nat.eqb_refl. cbn [bind]. unfold xm.
    rewrite !cols_tabm. f_equal. f_equal.
    + rewrite map_tab. apply tab_ext. intros j Hj. cbn [ndot xops]. rewrite xdot_tab. apply xdiv_n. auto.
    + unfold xm, tabm. f_equal. rewrite map_tab. apply tab_ext. intros j Hj. rewrite map_tab. apply tab_ext. intros u Hu.
      cbn [gdot xops]. apply xdot_tab.
  - assert (G : forall Z j, (j < p)%nat -> qmt_dense_gradient_j xops (QuadMT (xv p (Lq n X)) (xm p T (fun j t => Sum n (fun i => X i j * Y i t))))
        (Dataset (xm n p X) t) (xm n T Z) j = Ret (xv T (gq n X Y Z j))).
    { intros Z j Hj. unfold qmt_dense_gradient_j. cbn [dtargets design_matrix]. cbv zeta. rewrite H1.
      change (mcol (f0 xops) (xm n p X) j) with (mcol (f0 xops) (tabm n p (fun i j => Fin (X i j))) j). rewrite mcol_tabm by auto.
      cbn [bind]. unfold vtm. change (mnr (xm n T Z)) with n. rewrite tab_length, Nat.eqb_refl. cbn [bind].
      change (cols (f0 xops) (xm n T Z)) with (cols (f0 xops) (tabm n T (fun i j => Fin (Z i j)))). rewrite cols_tabm, map_tab.
      rewrite (tab_ext T _ (fun u => Fin (Sum n (fun i => X i j * Z i u)))).
      - apply (gq_row n T X Y Z j _ p Hn Hj).
      - intros u Hu. cbn [ndot xops]. rewrite xdot_tab. f_equal. apply Sum_ext. intros. ring. }
    constructor.
    + intros Z. apply qmt_value_fin; auto.
    + intros Z j Hj. apply G; auto.
    + intros Z. cbn [qmt_dense dfm_full_grad]. unfold qmt_dense_full_grad. cbn [design_matrix dtargets]. cbv zeta. change (mnc (xm n p X)) with p.
      rewrite (mapM_seq _ p (fun j => xv T (gq n X Y Z j))) by (intros; apply G; auto). cbn [bind]. rewrite H2. apply reshape_concat_tab.
    + reflexivity.
Qed.

Lemma task_loop T (f : list xr -> nat -> res (list xr)) (a b : nat -> R) :
  (forall g u, (u < T)%nat -> g u = a u -> f (xv T g) u = Ret (xv T (fun k => if (k =? u)%nat then a u + b u else g k))) ->
  foldM f (seq 0 T) (xv T a) = Ret (xv T (fun t => a t + b t)).
Proof.
  intros H. set (st := fun u => xv T (fun t => if (t <? u)%nat then a t + b t else a t)).
  assert (E0 : xv T a = st 0%nat) by reflexivity. rewrite E0, (foldM_seq _ st).
  - f_equal. apply xv_ext. intros t Ht. rewrite (proj2 (Nat.ltb_lt _ _)) by lia. reflexivity.
  - intros u Hu. unfold st at 1. rewrite H by (try lia; cbv beta; rewrite (proj2 (Nat.ltb_ge u u)) by lia; reflexivity).
    f_equal. apply xv_ext. intros t Ht. destruct (t =? u)%nat eqn:Ea, (t <? u)%nat eqn:Eb, (t <? 1 + u)%nat eqn:Ec; auto;
      rewrite ?Nat.ltb_lt, ?Nat.ltb_ge, ?Nat.eqb_eq, ?Nat.eqb_neq in *; subst; auto; lia.
Qed.
Lemma qmt_sparse_ok n p T E c t Y d : (1 <= n)%nat -> csc_of n p E c -> multi_target_of n T Y t ->
  exists d', dfm_initialize (qmt_sparse xops) d (Dataset c t) = Ret d' /\
    dfm_ok (qmt_sparse xops) d' (Dataset c t) n p T (quad_loss_mt n T Y) (gq n (entry E) Y) (fun j => sqs E j / INR n).
Proof.
  intros Hn HC Ht. destruct (target_mt_n n T Y t Ht) as (H1 & H2 & H3).
  assert (Hnf : csc_n_features c = Ret p) by (unfold csc_n_features; rewrite (proj1 HC); reflexivity).
  assert (Hcol : forall j, (j < p)%nat -> csc_col c j (E j)) by (intros; apply HC; auto).
  assert (Hrow : forall j e, (j < p)%nat -> In e (E j) -> (fst e < n)%nat) by (intros j e Hj; destruct HC as [_ HC]; apply (HC j Hj)).
  exists (QuadMT (xv p (fun j => sqs E j / INR n)) (xm p T (fun j t => Sum n (fun i => entry E i j * Y i t)))). split.
  - cbn [qmt_sparse dfm_initialize]. unfold qmt_sparse_initialize. cbn [dtargets design_matrix]. cbv zeta. rewrite H1, H2, H3, Hnf. cbn [bind].
    rewrite (mapM_seq _ p (fun j => (Fin (sqs E j / INR n), xv T (fun u => Sum n (fun i => entry E i j * Y i u))))).
    + cbn [bind]. rewrite !map_tab. reflexivity.
    + intros j Hj. unfold qmt_sparse_init_feature. rewrite vzeros_xv. change (f0 xops) with (Fin 0).
      rewrite (col_loop (fun q => (Fin (fst q), xv T (snd q))) c j (E j) _
               (fun q e => (fst q + snd e * snd e, fun u => snd q u + snd e * Y (fst e) u)) (Hcol j Hj)) with (s := (0, fun _ => 0)).
      * cbn [bind]. rewrite xdiv_n by auto.
        assert (G : forall l q, let r := fold_left (fun (q : R * (nat -> R)) (e : nat * R) => (fst q + snd e * snd e, fun u => snd q u + snd e * Y (fst e) u)) l q in
           fst r = fst q + Rsum (map (fun e => snd e * snd e) l) /\ forall u, snd r u = snd q u + Rsum (map (fun e => snd e * Y (fst e) u) l)).
        { induction l as [|e l IH]; intros q; cbn [fold_left].
          - unfold Rsum; simpl. split; [ring|intros; ring].
          - cbv zeta in IH |- *. destruct (IH (fst q + snd e * snd e, fun u => snd q u + snd e * Y (fst e) u)) as [I1 I2]. rewrite I1. split.
            + unfold Rsum. simpl. ring.
            + intros u. rewrite I2. unfold Rsum. simpl. ring. }
        destruct (G (E j) (0, fun _ => 0)) as [G1 G2]. rewrite G1. f_equal. f_equal.
        -- unfold sqs. do 2 f_equal. cbn [fst]. ring.
        -- apply xv_ext. intros u Hu. rewrite G2, (entry_sum n p E c j (fun i => Y i u) HC Hj). cbn [snd]. ring.
      * intros [q1 q2] z e He I1 I2. rewrite I2. cbn [bind fst snd].
        rewrite (task_loop T _ q2 (fun u => snd e * Y (fst e) u)); [reflexivity|].
        intros g u Hu Hg. rewrite I1. cbn [bind]. rewrite (proj2 (Z.ltb_ge _ _)) by lia. rewrite Nat2Z.id.
        rewrite mget_xm by (auto; apply (Hrow j); auto). cbn [bind]. rewrite vget_xv by auto. cbn [bind fadd fmul xops xmul xadd].
        rewrite vset_xv by auto. rewrite Hg. reflexivity.
  - assert (G : forall Z j, (j < p)%nat -> qmt_sparse_gradient_j xops (QuadMT (xv p (fun j => sqs E j / INR n)) (xm p T (fun j t => Sum n (fun i => entry E i j * Y i t))))
        (Dataset c t) (xm n T Z) j = Ret (xv T (gq n (entry E) Y Z j))).
    { intros Z j Hj. unfold qmt_sparse_gradient_j. cbn [dtargets design_matrix]. cbv zeta. rewrite H1, H2, vzeros_xv.
      rewrite <- bind_assoc.
      rewrite (col_loop (xv T) c j (E j) _ (fun q e => fun u => q u + snd e * Z (fst e) u) (Hcol j Hj)).
      - cbn [bind]. rewrite (xv_ext T _ (fun u => Sum n (fun i => entry E i j * Z i u))).
        + apply (gq_row n T (entry E) Y Z j _ p Hn Hj).
        + intros u Hu. rewrite (fold_sum_tab (fun e u => snd e * Z (fst e) u)), (entry_sum n p E c j (fun i => Z i u) HC Hj). ring.
      - intros q z e He I1 I2. rewrite (task_loop T _ q (fun u => snd e * Z (fst e) u)); [reflexivity|].
        intros g u Hu Hg. rewrite I2. cbn [bind]. rewrite I1. cbn [bind]. rewrite (proj2 (Z.ltb_ge _ _)) by lia. rewrite Nat2Z.id.
        rewrite mget_xm by (auto; apply (Hrow j); auto). cbn [bind]. rewrite vget_xv by auto. cbn [bind fadd fmul xops xmul xadd].
        rewrite vset_xv by auto. rewrite Hg. reflexivity. }
    constructor.
    + intros Z. apply qmt_value_fin; auto.
    + intros Z j Hj. apply G; auto.
    + intros Z. cbn [qmt_sparse dfm_full_grad]. unfold qmt_sparse_full_grad. cbn [design_matrix dtargets]. rewrite Hnf. cbn [bind].
      rewrite (mapM_seq _ p (fun j => xv T (gq n (entry E) Y Z j))) by (intros; apply G; auto). cbn [bind]. rewrite H2. apply reshape_concat_tab.
    + reflexivity.
Qed.
