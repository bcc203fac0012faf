(** Examples for wrong-length model fits. *)
From Coq Require Import List ZArith Bool Arith Lia Reals Lra.
From Verif Require Import Ops Arr XR RSum SpecLin PLin PPenVal SpecSolve SpecData SpecShape MUtils MDatasets MDatafits MDatafitsMT PBase PStruct PShape PData PDatafit PWrongLen.
Import ListNotations.
Local Open Scope R_scope.

Definition wy : targets xr := T1 [Fin 1; Fin 2].
Definition wX : csc xr := Csc [Fin 1] [0%Z] [0%Z; 1%Z].
Lemma ex_wrong : single_target (f0 xops) wy = Ret [Fin 1; Fin 2] /\ single_target_of 2 (fun i => 1 + INR i) wy /\
  quad_value xops (quadratic_new xops) (Dataset tt wy) [Fin 3] = Ret (Fin (5 / 4)) /\
  quad_value xops (quadratic_new xops) (Dataset tt wy) [Fin 3; Fin 3; Fin 3] = Panic PShape.
Proof.
  split; [reflexivity|]. split; [left; unfold wy, xv, tab; cbn [map seq]; simpl INR; replace (1 + 0) with 1 by ring; replace (1 + 1) with 2 by ring; reflexivity|]. split; [|reflexivity].
  unfold quad_value, wy. cbn [dtargets n_samples length single_target try_single_target as_multi_tasks mnc mcol bind map Nat.ltb Nat.leb colv mrows nth]. cbn [vsub vbin length Nat.eqb map bind]. cbn [vdot length Nat.eqb bind].
  match goal with |- Ret (fdiv _ ?a ?b) = _ => change a with (Fin (0 + (1 - 3) * (1 - 3) + (2 - 3) * (2 - 3))); change b with (Fin (INR 4)) end. cbn [fdiv xops]. rewrite xdiv_fin by (simpl; lra). do 2 f_equal. simpl. lra.
Qed.
Lemma dense_sparse_differ : exists g h, shaped 1 1 (Mat 1 1 [[Fin 1]]) /\ csc_wf 1 1 wX /\
  log_dense_gradient_j xops (logistic_new xops) (Dataset (Mat 1 1 [[Fin 1]]) (T1 [Fin 1])) [Fin 0; Fin 0] 0 = Ret (Fin g) /\
  log_sparse_gradient_j xops (logistic_new xops) (Dataset wX (T1 [Fin 1])) [Fin 0; Fin 0] 0 = Ret (Fin h) /\ h = 2 * g /\ g <> 0.
Proof.
  exists (- (1/4)), (- (1/2)). split; [repeat split; repeat constructor|]. split; [repeat split; repeat constructor; cbn; lia|].
  assert (S : sigmoid xops (fmul xops (fneg xops (Fin 1)) (Fin 0)) = Fin (1/2)).
  { change (fmul xops (fneg xops (Fin 1)) (Fin 0)) with (Fin (- (1) * 0)). rewrite sigmoid_fin. unfold sig. f_equal. replace (- (- (1) * 0)) with 0 by ring. rewrite exp_0. lra. }
  split; [|split; [|split; lra]].
  - unfold log_dense_gradient_j. cbn [dtargets design_matrix single_target try_single_target as_multi_tasks mnc mcol bind length map Nat.ltb Nat.leb colv mrows nth]. unfold map2. cbn [combine map fst snd]. cbv zeta. rewrite S. cbn [vdot length Nat.eqb bind].
    match goal with |- Ret (fdiv _ ?a ?b) = _ => change a with (Fin (- (0 + 1 * (1 * (1 / 2))))); change b with (Fin (INR 2)) end. cbn [fdiv xops]. rewrite xdiv_fin by (simpl; lra). do 2 f_equal. simpl. lra.
  - unfold log_sparse_gradient_j, wX. cbn [dtargets design_matrix single_target try_single_target as_multi_tasks mnc mcol bind length map Nat.ltb Nat.leb colv mrows nth n_samples]. cbn [csc_range cindptr cdata cindices vget nth_error bind]. unfold zrange. cbn [Z.sub Z.add Z.opp Z.to_nat Pos.to_nat Pos.iter_op Nat.add seq map Z.of_nat foldM vgetz Z.ltb Z.compare vget nth_error bind].
    change (seq 0 (Pos.to_nat 1)) with [0%nat]. cbn [map Z.of_nat foldM vgetz Z.ltb Z.compare vget nth_error bind Z.to_nat]. rewrite S. match goal with |- Ret (fsub _ _ (fdiv _ ?a ?b)) = _ => change a with (Fin (1 * 1 * (1 / 2))); change b with (Fin (INR 1)) end. cbn [fdiv xops]. rewrite xdiv_fin by (simpl; lra). cbn [fsub xops xsub f0]. do 2 f_equal. simpl. lra.
Qed.
(** a fit of one row for two samples and two tasks *)
Definition wY : targets xr := T2 (xm 2 2 (fun i k => 1 + 2 * INR i + INR k)).
Lemma ex_repeated : multi_target_of 2 2 (fun i k => 1 + 2 * INR i + INR k) wY /\ repeatable 2 1 /\ repeatable 2 2 /\
  qmt_value xops (quadratic_mt_new xops) (Dataset tt wY) (xm 1 2 (fun _ k => INR k)) = Ret (Fin 5).
Proof.
  assert (M : multi_target_of 2 2 (fun i k => 1 + 2 * INR i + INR k) wY) by (left; reflexivity).
  split; [exact M|]. split; [right; right; reflexivity|]. split; [left; reflexivity|].
  rewrite (repeated_loss 2 2 1 2 tt wY (fun i k => 1 + 2 * INR i + INR k)); auto; [|right; right; reflexivity|left; reflexivity].
  do 2 f_equal. unfold repeated. cbn [Nat.eqb Nat.max]. rewrite !Sum_S, !Sum_0. simpl INR. lra.
Qed.
