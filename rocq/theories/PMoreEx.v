(** Corollaries and concrete instances for [PropMore]. *)
From Coq Require Import List ZArith Bool Arith Reals Lra Lia.
From Verif Require Import Ops Arr MUtils MDatasets MDatafits MDatafitsMT MPenalties MBlockPenalties MCd MBcd MHyper MEstimators XR SpecPen VecR PBase RSum SpecLin SpecData SpecDatafit PDatafit PDataProps PDataEx SpecSolve PLaws PSubdiff PCalc SpecOpt SpecNull SpecMore PDescent PFitOpt PCert PCertEx PNullFit PNullEx2 POptEx PMore PConvBlock.
Import ListNotations.
Open Scope R_scope.

(** *** two settings, one elastic-net problem *)
Lemma settle_agree srt srt' (VS : valid_sort xops srt) (VS' : valid_sort xops srt') n p X y l a r s s' fit fit' t1 t2 : (1 <= n)%nat -> 0 < a -> 0 <= r < 1 -> targets_ok l n y ->
  single_fit srt n p X y l (EnetPen a r) s fit -> single_fit srt' n p X y l (EnetPen a r) s' fit' -> accepted fit -> accepted fit' ->
  s_tolerance s = Fin t1 -> s_tolerance s' = Fin t2 -> 0 < t1 -> 0 < t2 ->
  (forall q, In q [s; s'] -> (1 <= s_ws_start_size q)%nat /\ (1 <= s_max_epochs q)%nat /\ calm_schedule (s_use_acceleration q) (s_K q) (s_max_epochs q) /\
     accel_safe (s_use_acceleration q) (s_K q) (Nat.min (s_ws_start_size q) p) (s_max_epochs q)) ->
  exists N w v, (forall m, (N <= m)%nat -> fit m = Ret (Ok (xv p w)) /\ fit' m = Ret (Ok (xv p v))) /\
    Sum p (fun j => (w j - v j) ^ 2) <= INR p * ((t1 + t2) / (a * (1 - r))) ^ 2.
Proof.
  intros Hn Ha Hr Ht HF HF' Hacc Hacc' E1 E2 P1 P2 HQ. destruct (HQ s (or_introl eq_refl)) as (A1 & A2 & A3 & A4). destruct (HQ s' (or_intror (or_introl eq_refl))) as (B1 & B2 & B3 & B4).
  destruct (c27_single srt VS n p Hn _ _ _ _ _ _ HF Ht I t1 Hacc E1 P1 A1 A2 A3 A4) as (N & w & Hw & Hall).
  destruct (c27_single srt' VS' n p Hn _ _ _ _ _ _ HF' Ht I t2 Hacc' E2 P2 B1 B2 B3 B4) as (N' & v & Hv & Hall').
  exists (Nat.max N N'), w, v. split; [intros m Hm; split; [apply Hall|apply Hall']; lia|]. apply (enet_agree l a r n p X y t1 t2); auto. lra.
Qed.

Lemma zero_iff_log0 n p X y k am : (1 <= n)%nat -> reported_alpha_max n p X y am -> pen1_range k ->
  (stationary 0 (loss1 Logistic n y) p X (pen1 k) (fun _ => 0) <-> am / 2 <= slope k).
Proof. intros Hn Ham Hr. rewrite <- (Rplus_0_r (slope k)). exact (zero_iff_log n p Hn X y k am 0 Ham Hr (Rle_refl 0)). Qed.

(** *** instances *)
Definition fit_logn m := ok (solver_call (dsort xops) (dense_dm xops) (log_dense xops) (EnetPen 1 (1/2)) (solver_max_iterations m (settings (opr 0 0))) (Dataset (xm 3 3 (entry exE)) (T1 (xv 3 oy))) (Logi [])).
Lemma ex_fit_logn : single_fit (dsort xops) 3 3 (entry exE) oy Logistic (EnetPen 1 (1/2)) (settings (opr 0 0)) fit_logn /\ accepted fit_logn /\ 2/3/2 <= slope (EnetPen 1 (1/2)) + 1/100.
Proof.
  split; [apply (solve_log_dense (dsort xops) 3 3 (entry exE) oy (EnetPen 1 (1/2)) (settings (opr 0 0))); [left; reflexivity|simpl; lra]|].
  split; [|simpl; lra]. intros m e. unfold fit_logn. destruct (solver_call _ _ _ _ _ _ _); discriminate.
Qed.
Lemma ex_log_sharp : slope (EnetPen (1/10) (1/2)) + 1/100 < 2/3/2 /\ steps_ok Rlt (EnetPen (1/10) (1/2)) Logistic 3 3 (entry exE).
Proof. split; [simpl; lra|exact I]. Qed.
(** the logistic fit of [POptEx] on the sparse matrix, without extrapolation *)
Definition mpr : params xr := Params (Fin 0) (Fin 0) 50 7 1 (Fin (1/1000)) 3 false false.
Definition fit_logs m := ok (solver_call (dsort xops) (sparse_dm xops) (log_sparse xops) (EnetPen (1/10) (1/2)) (solver_max_iterations m (settings mpr)) (Dataset exC (T1 (xv 3 oy))) (Logi [])).
Lemma ex_fit_logs : single_fit (dsort xops) 3 3 (entry exE) oy Logistic (EnetPen (1/10) (1/2)) (settings mpr) fit_logs /\ accepted fit_logs.
Proof.
  split; [apply (solve_log_sparse (dsort xops) 3 3 exE exC oy (EnetPen (1/10) (1/2)) (settings mpr)); [apply ex_csc|apply ex_csc|left; reflexivity|simpl; lra]|].
  intros m e. unfold fit_logs. destruct (solver_call _ _ _ _ _ _ _); discriminate.
Qed.
Lemma ex_log_pair q : In q [settings (opr 0 0); settings mpr] -> (1 <= s_ws_start_size q)%nat /\ (1 <= s_max_epochs q)%nat /\ calm_schedule (s_use_acceleration q) (s_K q) (s_max_epochs q) /\
  accel_safe (s_use_acceleration q) (s_K q) (Nat.min (s_ws_start_size q) 3) (s_max_epochs q).
Proof.
  intros [<-|[<-|[]]].
  - pose proof (ex_settings 0 0). tauto.
  - cbn [settings mpr p_tolerance p_ws_start_size p_max_epochs p_use_acceleration p_K s_tolerance s_ws_start_size s_max_epochs s_use_acceleration s_K]. split; [lia|]. split; [lia|]. split; left; reflexivity.
Qed.
(** multi-task elastic net, weight of the row norm 1/20, resp. 2 *)
Definition fit_mte a m := mt_estimator_dense (dsort xops) (MtEnetPen a (1/2)) (set_max_iterations m (opr a (1/2))) (Dataset (xm 3 3 (entry exE)) (T2 (xm 3 2 oY))).
Lemma enet_check a pr : 0 <= a -> p_alpha pr = Fin a -> p_shape pr = Fin (1/2) -> p_tolerance pr = Fin (1/100) -> forall m, (1 <= p_K pr)%nat -> (1 <= p_ws_start_size pr)%nat ->
  mt_elastic_net_check_ref xops (set_max_iterations m pr) = Ok (set_max_iterations m pr).
Proof.
  intros Ha E1 E2 E3 m HK Hw. unfold mt_elastic_net_check_ref, set_max_iterations. cbn [p_alpha p_shape p_tolerance p_K p_ws_start_size]. rewrite E1, E2, E3.
  cbn [fisneg flt f1 f0 xops xisneg xlt]. rewrite !(proj2 (Rltb_false _ _)) by lra.
  destruct (p_K pr); [lia|]. destruct (p_ws_start_size pr); [lia|]. reflexivity.
Qed.
Lemma ex_fit_mte a : 0 < a -> multi_fit (dsort xops) 3 3 2 (entry exE) oY (MtEnetPen a (1/2)) (settings (opr a (1/2))) (fit_mte a) /\ accepted (fit_mte a).
Proof.
  intros Ha. split.
  - apply (mt_fit_dense (dsort xops) 3 3 2 (entry exE) oY (MtEnetPen a (1/2)) (opr a (1/2))); [left; reflexivity|split; reflexivity|simpl; lra].
  - intros m e. unfold fit_mte. cbn [mt_estimator_dense]. unfold fit_unchecked. rewrite (enet_check a (opr a (1/2))); try reflexivity; try lra; try (simpl; lia). destruct (mt_elastic_net_fit_dense _ _ _ _); discriminate.
Qed.
Lemma ex_mtm_ok : accepted fit_mtm /\ gamma_ok Rlt 3 Squared 3 3 (entry exE).
Proof. split; [|apply ex_steps; lra]. intros m e. unfold fit_mtm. destruct (mt_solver_call _ _ _ _ _ _ _); discriminate. Qed.

(** *** the criterion of the multi-task elastic net is never met: correlation 3, weight 4 *)
Definition oneY3 : rmat := fun _ _ => 3.
Definition npr : params xr := Params (Fin 8) (Fin (1/2)) 50 50 1 (Fin (1/100)) 1 false false.
Definition fit_never m := mt_estimator_dense (dsort xops) (MtEnetPen 8 (1/2)) (set_max_iterations m npr) (Dataset (xm 1 1 oneX1) (T2 (xm 1 1 oneY3))).
Lemma fit_never_ex : multi_fit (dsort xops) 1 1 1 oneX1 oneY3 (MtEnetPen 8 (1/2)) (settings npr) fit_never /\ accepted fit_never.
Proof.
  split.
  - apply (mt_fit_dense (dsort xops) 1 1 1 oneX1 oneY3 (MtEnetPen 8 (1/2)) npr); [left; reflexivity|split; reflexivity|simpl; lra].
  - intros m e. unfold fit_never. cbn [mt_estimator_dense]. unfold fit_unchecked. rewrite (enet_check 8 npr); try reflexivity; try lra; try (simpl; lia). destruct (mt_elastic_net_fit_dense _ _ _ _); discriminate.
Qed.
Lemma am_never : reported_alpha_max_mt 1 1 1 oneX1 oneY3 3.
Proof.
  unfold reported_alpha_max_mt. rewrite alpha_max_mtl by lia. do 2 f_equal. unfold maxabs, xty_norm. cbn [seq map fold_left]. rewrite !Sum_S, !Sum_0. unfold oneX1, oneY3.
  replace (0 + (0 + 1 * 3) ^ 2) with (3 * 3) by ring. rewrite sqrt_square by lra. rewrite Rabs_right, Rmax_right by lra. cbn. field.
Qed.
Lemma never_stat : stationary_mt 0 (quad_loss_mt 1 1 oneY3) 1 1 oneX1 (penT (MtEnetPen 8 (1/2))) (fun _ _ => 0).
Proof.
  apply stationary_mt_iff; [lia|simpl; lra|]. intros j Hj. rewrite tab_zero by reflexivity. rewrite tdT_zero. cbn [slopeT]. unfold gq, lin_mt, oneX1, oneY3, tab. cbn [seq map]. rewrite !Sum_S, !Sum_0. simpl INR.
  match goal with |- context [norm2 [?x]] => replace x with (-3) by field end. assert (E : norm2 [-3] = 3) by (unfold norm2; simpl; replace (-3 * -3 + 0) with (3 * 3) by ring; apply sqrt_square; lra).
  rewrite E. rewrite Rmax_left by lra. lra.
Qed.
Lemma never_unmet tol : tol < 5 -> ~ enet_mt_criterion tol (quad_loss_mt 1 1 oneY3) 1 1 oneX1 (penT (MtEnetPen 8 (1/2))) (fun _ _ => 0) (8 * (1/2)).
Proof.
  intros Ht H. destruct (proj1 (H 0%nat ltac:(lia))) as (g & Dg & Hg). { intros t _. reflexivity. }
  assert (Eg : g 0%nat = gq 1 oneX1 oneY3 (lin_mt 1 oneX1 (fun _ _ => 0)) 0 0) by (eapply uniqueness_limite; [apply (Dg 0%nat); lia|apply quad_mt_deriv; lia]).
  revert Hg. rewrite Sum_S, Sum_0, Eg. unfold gq, lin_mt, oneX1, oneY3. rewrite !Sum_S, !Sum_0. simpl INR. intros Hg. lra.
Qed.
Lemma never_met : exists (srt : list xr -> list nat) n p T X Y a r s fit tol, valid_sort xops srt /\ (1 <= n)%nat /\ multi_fit srt n p T X Y (MtEnetPen a r) s fit /\ accepted fit /\
  s_tolerance s = Fin tol /\ 0 < tol /\ (1 <= s_ws_start_size s)%nat /\ (1 <= s_max_epochs s)%nat /\ s_use_acceleration s = false /\
  (forall m, fit m = Ret (Ok (xm p T (fun _ _ => 0)))) /\ stationary_mt 0 (quad_loss_mt n T Y) p T X (penT (MtEnetPen a r)) (fun _ _ => 0) /\
  ~ enet_mt_criterion tol (quad_loss_mt n T Y) p T X (penT (MtEnetPen a r)) (fun _ _ => 0) (a * r).
Proof.
  exists (dsort xops), 1%nat, 1%nat, 1%nat, oneX1, oneY3, 8, (1/2), (settings npr), fit_never, (1/100). destruct fit_never_ex as [HF Hacc].
  split; [apply xr_sort|]. split; [lia|]. split; [exact HF|]. split; [exact Hacc|]. split; [reflexivity|]. split; [lra|]. split; [simpl; lia|]. split; [simpl; lia|]. split; [reflexivity|].
  split; [|split; [apply never_stat|apply never_unmet; lra]]. intros m.
  assert (Hev : exists v, fit_never m = Ret (Ok v)).
  { pose proof (enet_eventually (dsort xops) xr_sort 1 1 ltac:(lia) 1 oneX1 oneY3 8 (1/2) (settings npr) fit_never HF (1/100) Hacc eq_refl ltac:(lra) ltac:(simpl; lia) ltac:(simpl; lia) ltac:(left; reflexivity) ltac:(left; reflexivity) ltac:(lra)) as (N & HN).
    destruct (HN (Nat.max N m) ltac:(lia)) as (W & EW & _). destruct (c26_multi (dsort xops) xr_sort 1 1 ltac:(lia) 1 oneX1 oneY3 _ _ fit_never HF I m (Nat.max N m) _ ltac:(lia) EW) as (W1 & _ & E1 & _). eauto. }
  destruct Hev as (v & Ev). rewrite Ev. do 2 f_equal. apply (c19_enet_mt (dsort xops) xr_sort 1 1 ltac:(lia) 1 oneX1 oneY3 (MtEnetPen 8 (1/2)) 3 (settings npr) fit_never am_never HF I) with (m := m); auto. simpl. lra.
Qed.
