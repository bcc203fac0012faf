(** Gradients of datafit objects which were never initialised. *)
From Coq Require Import List ZArith Bool Arith Reals Lra Lia.
From Verif Require Import Ops Arr MUtils MDatasets MDatafits MDatafitsMT XR PBase RSum SpecLin SpecData SpecDatafit PDatafit PDataEx PLin PPenVal PData.
Import ListNotations.
Open Scope R_scope.

Lemma row_new n T (g : nat -> R) : (1 <= n)%nat -> (b <- mrow (qm_XtY (quadratic_mt_new xops)) 0 ;; r <- vsub xops (xv T g) b ;; Ret (map (fun v => fdiv xops v (fcast xops n)) r)) = Ret (xv T (fun t => g t / INR n)).
Proof.
  intros Hn. change (mrow (qm_XtY (quadratic_mt_new xops)) 0) with (Ret [Fin 0]). cbn [bind].
  assert (E : vsub xops (xv T g) [Fin 0] = Ret (xv T g)).
  { unfold vsub, vbin. destruct T as [|[|T]]; [reflexivity| |].
    - change (Ret [xsub (Fin (g 0%nat)) (Fin 0)] = Ret (xv 1 g)). cbn [xsub]. rewrite Rminus_0_r. reflexivity.
    - rewrite xv_length. cbn [length Nat.eqb]. assert (H : map (fun x => fsub xops x (Fin 0)) (xv (S (S T)) g) = xv (S (S T)) g).
      { unfold xv. rewrite map_tab. apply tab_ext. intros. cbn [fsub xops xsub]. f_equal. ring. }
      destruct (xv (S (S T)) g) as [|x [|x' l]] eqn:Ex; try discriminate Ex. rewrite H. reflexivity. }
  rewrite E. cbn [bind]. unfold xv. rewrite map_tab. f_equal. apply tab_ext. intros t Ht. apply xdiv_n. auto.
Qed.
Lemma uninit n p T X t y t' Y Z ZZ : (1 <= n)%nat -> (1 <= p)%nat -> single_target_of n y t -> multi_target_of n T Y t' ->
  (df_gradient_j (quad_dense xops) (df_new (quad_dense xops)) (Dataset (xm n p X) t) (xv n Z) 0 = Ret (Fin (Sum n (fun i => X i 0%nat * Z i) / INR n))) /\
  (dfm_gradient_j (qmt_dense xops) (dfm_new (qmt_dense xops)) (Dataset (xm n p X) t') (xm n T ZZ) 0 = Ret (xv T (fun u => Sum n (fun i => X i 0%nat * ZZ i u) / INR n))) /\
  forall E c, csc_of n p E c -> X = entry E ->
  df_gradient_j (quad_sparse xops) (df_new (quad_sparse xops)) (Dataset c t) (xv n Z) 0 = Ret (Fin (Sum n (fun i => X i 0%nat * Z i) / INR n)) /\
  dfm_gradient_j (qmt_sparse xops) (dfm_new (qmt_sparse xops)) (Dataset c t') (xm n T ZZ) 0 = Ret (xv T (fun u => Sum n (fun i => X i 0%nat * ZZ i u) / INR n)).
Proof.
  intros Hn Hp Ht Ht'. destruct (target_mt_n n T Y t' Ht') as (H1 & H2 & H3). assert (HN : INR n <> 0) by (apply not_0_INR; lia). split; [|split].
  - cbn [quad_dense df_gradient_j df_new]. unfold quad_dense_gradient_j. cbn [dtargets design_matrix]. cbv zeta. rewrite (target_n n y t Ht).
    unfold xm. rewrite mcol_tabm by auto. cbn [bind]. change (tab n (fun i => Fin (X i 0%nat))) with (xv n (fun i => X i 0%nat)). rewrite vdot_xv. cbn [bind].
    change (vget (q_Xty (quadratic_new xops)) 0) with (Ret (Fin 0)). cbn [bind fsub xops xsub]. rewrite xdiv_n by auto. do 3 f_equal. ring.
  - cbn [qmt_dense dfm_gradient_j dfm_new]. unfold qmt_dense_gradient_j. cbn [dtargets design_matrix]. cbv zeta. rewrite H1.
    change (mcol (f0 xops) (xm n p X) 0) with (mcol (f0 xops) (tabm n p (fun i j => Fin (X i j))) 0). rewrite mcol_tabm by auto.
    cbn [bind]. unfold vtm. change (mnr (xm n T ZZ)) with n. rewrite tab_length, Nat.eqb_refl. cbn [bind].
    change (cols (f0 xops) (xm n T ZZ)) with (cols (f0 xops) (tabm n T (fun i j => Fin (ZZ i j)))). rewrite cols_tabm, map_tab.
    rewrite (tab_ext T _ (fun u => Fin (Sum n (fun i => X i 0%nat * ZZ i u)))).
    + apply (row_new n T (fun u => Sum n (fun i => X i 0%nat * ZZ i u)) Hn).
    + intros u Hu. cbn [ndot xops]. rewrite xdot_tab. f_equal. apply Sum_ext. intros. ring.
  - intros E c HC ->. assert (Hcol : forall j, (j < p)%nat -> csc_col c j (E j)) by (intros; apply HC; auto).
    assert (Hrow : forall j e, (j < p)%nat -> In e (E j) -> (fst e < n)%nat) by (intros j e Hj; destruct HC as [_ HC]; apply (HC j Hj)). split.
    + cbn [quad_sparse df_gradient_j df_new]. unfold quad_sparse_gradient_j. cbn [dtargets design_matrix]. cbv zeta. rewrite (target_n n y t Ht).
      change (f0 xops) with (Fin 0). rewrite <- bind_assoc. rewrite (acc_loop n p E c HC _ Z 0 Hp).
      * cbn [bind]. change (vget (q_Xty (quadratic_new xops)) 0) with (Ret (Fin 0)). cbn [bind fsub xops xsub]. rewrite xdiv_n by auto. do 3 f_equal. ring.
      * intros s z e He I1 I2. rewrite I2. cbn [bind]. rewrite I1. cbn [bind]. rewrite vgetz_xv by (apply (Hrow 0%nat); auto). reflexivity.
    + cbn [qmt_sparse dfm_gradient_j dfm_new]. unfold qmt_sparse_gradient_j. cbn [dtargets design_matrix]. cbv zeta. rewrite H1, H2, vzeros_xv. rewrite <- bind_assoc.
      rewrite (col_loop (xv T) c 0 (E 0%nat) _ (fun q e => fun u => q u + snd e * ZZ (fst e) u) (Hcol 0%nat Hp)).
      * cbn [bind]. rewrite (xv_ext T _ (fun u => Sum n (fun i => entry E i 0%nat * ZZ i u))).
        -- apply (row_new n T _ Hn).
        -- intros u Hu. rewrite (fold_sum_tab (fun e u => snd e * ZZ (fst e) u)), (entry_sum n p E c 0 (fun i => ZZ i u) HC Hp). ring.
      * intros q z e He I1 I2. rewrite (task_loop T _ q (fun u => snd e * ZZ (fst e) u)); [reflexivity|].
        intros g u Hu Hg. rewrite I2. cbn [bind]. rewrite I1. cbn [bind]. rewrite (proj2 (Z.ltb_ge _ _)) by lia. rewrite Nat2Z.id.
        rewrite mget_xm by (auto; apply (Hrow 0%nat); auto). cbn [bind]. rewrite vget_xv by auto. cbn [bind fadd fmul xops xmul xadd].
        rewrite vset_xv by auto. rewrite Hg. reflexivity.
Qed.
(** further components *)
Lemma uninit_oob n p T X t y t' Y Z ZZ j : (1 <= j < p)%nat -> single_target_of n y t -> multi_target_of n T Y t' ->
  df_gradient_j (quad_dense xops) (df_new (quad_dense xops)) (Dataset (xm n p X) t) (xv n Z) j = Panic POob /\
  dfm_gradient_j (qmt_dense xops) (dfm_new (qmt_dense xops)) (Dataset (xm n p X) t') (xm n T ZZ) j = Panic POob /\
  forall E c, csc_of n p E c ->
  df_gradient_j (quad_sparse xops) (df_new (quad_sparse xops)) (Dataset c t) (xv n Z) j = Panic POob /\
  dfm_gradient_j (qmt_sparse xops) (dfm_new (qmt_sparse xops)) (Dataset c t') (xm n T ZZ) j = Panic POob.
Proof.
  intros Hj Ht Ht'. destruct (target_mt_n n T Y t' Ht') as (H1 & H2 & H3). assert (Hp : (j < p)%nat) by lia.
  assert (V : vget (q_Xty (quadratic_new xops)) j = Panic POob) by (destruct j as [|[|j]]; [lia|reflexivity|reflexivity]).
  assert (M : mrow (qm_XtY (quadratic_mt_new xops)) j = Panic POob) by (destruct j as [|[|j]]; [lia|reflexivity|reflexivity]).
  split; [|split].
  - cbn [quad_dense df_gradient_j df_new]. unfold quad_dense_gradient_j. cbn [dtargets design_matrix]. cbv zeta. rewrite (target_n n y t Ht).
    unfold xm. rewrite mcol_tabm by auto. cbn [bind]. change (tab n (fun i => Fin (X i j))) with (xv n (fun i => X i j)). rewrite vdot_xv. cbn [bind].
    rewrite V. reflexivity.
  - cbn [qmt_dense dfm_gradient_j dfm_new]. unfold qmt_dense_gradient_j. cbn [dtargets design_matrix]. cbv zeta.
    change (mcol (f0 xops) (xm n p X) j) with (mcol (f0 xops) (tabm n p (fun i j => Fin (X i j))) j). rewrite mcol_tabm by auto.
    cbn [bind]. unfold vtm. change (mnr (xm n T ZZ)) with n. rewrite tab_length, Nat.eqb_refl. cbn [bind]. rewrite M. reflexivity.
  - intros E c HC. assert (Hcol : forall j, (j < p)%nat -> csc_col c j (E j)) by (intros; apply HC; auto).
    assert (Hrow : forall j e, (j < p)%nat -> In e (E j) -> (fst e < n)%nat) by (intros k e Hk; destruct HC as [_ HC]; apply (HC k Hk)). split.
    + cbn [quad_sparse df_gradient_j df_new]. unfold quad_sparse_gradient_j. cbn [dtargets design_matrix]. cbv zeta.
      change (f0 xops) with (Fin 0). rewrite <- bind_assoc. rewrite (acc_loop n p E c HC _ Z j Hp).
      * cbn [bind]. rewrite V. reflexivity.
      * intros s z e He I1 I2. rewrite I2. cbn [bind]. rewrite I1. cbn [bind]. rewrite vgetz_xv by (apply (Hrow j); auto). reflexivity.
    + cbn [qmt_sparse dfm_gradient_j dfm_new]. unfold qmt_sparse_gradient_j. cbn [dtargets design_matrix]. cbv zeta. rewrite H2, vzeros_xv. rewrite <- bind_assoc.
      rewrite (col_loop (xv T) c j (E j) _ (fun q e => fun u => q u + snd e * ZZ (fst e) u) (Hcol j Hp)).
      * cbn [bind]. rewrite M. reflexivity.
      * intros q z e He I1 I2. rewrite (task_loop T _ q (fun u => snd e * ZZ (fst e) u)); [reflexivity|].
        intros g u Hu Hg. rewrite I2. cbn [bind]. rewrite I1. cbn [bind]. rewrite (proj2 (Z.ltb_ge _ _)) by lia. rewrite Nat2Z.id.
        rewrite mget_xm by (auto; apply (Hrow j); auto). cbn [bind]. rewrite vget_xv by auto. cbn [bind fadd fmul xops xmul xadd].
        rewrite vset_xv by auto. rewrite Hg. reflexivity.
Qed.
