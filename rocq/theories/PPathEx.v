(** Concrete instances for [PropPath]. *)
From Coq Require Import List ZArith Bool Arith Reals Lra Lia Permutation.
From Verif Require Import Ops Arr MUtils MDatasets MDatafits MDatafitsMT MPenalties MBlockPenalties MCd MBcd MHyper MEstimators XR IEEE SpecPen VecR PBase RSum SpecLin SpecData SpecDatafit PDatafit PDataProps PDataEx SpecSolve PLaws PSubdiff PSubdiffBlock PCalc SpecOpt PFitOpt PCert PMore POptEx SpecSym PSym PRunsEx SpecPath PPath PStab PScreen.
Import ListNotations.
Open Scope R_scope.

Lemma tenth_pos : 0 <= 1/10. Proof. lra. Qed.
Lemma fifth_pos : 0 <= 1/5. Proof. lra. Qed.
Lemma quarter_pos : 0 <= 1/4. Proof. lra. Qed.
Lemma tenth_pos' : 0 < 1/10. Proof. lra. Qed.
Lemma fifth_pos' : 0 < 1/5. Proof. lra. Qed.
Lemma patient_opr a s : patient 3 1 (settings (opr a s)) (1/100) /\ patient 3 2 (settings (opr a s)) (1/100).
Proof. destruct (ex_settings a s) as (E1 & E2 & E3 & E4 & E5 & E6). split; (split; [exact E1|split; [lra|split; [exact E2|split; [exact E3|split; [exact E4|]]]]]); [rewrite Nat.mul_1_r; exact E5|exact E6]. Qed.
Definition fit_el (X : rmat) (y : nat -> R) (a : R) m := estimator_dense (dsort xops) (EnetPen a (1/2)) (set_max_iterations m (opr a (1/2))) (Dataset (xm 3 3 X) (T1 (xv 3 y))).
Lemma ex_fit_el X y a : 0 <= a -> single_fit (dsort xops) 3 3 X y Squared (EnetPen a (1/2)) (settings (opr a (1/2))) (fit_el X y a) /\ accepted (fit_el X y a).
Proof.
  intros Ha. split; [apply (fit_dense (dsort xops) 3 3 X y (EnetPen a (1/2)) (opr a (1/2)) (T1 (xv 3 y))); [left; reflexivity|split; reflexivity]|].
  intros m e. unfold fit_el, estimator_dense, fit_unchecked, elastic_net_check_ref, set_max_iterations, opr. cbn [p_alpha p_shape p_tolerance p_K p_ws_start_size fisneg flt f1 f0 xops xisneg xlt fle xle Nat.eqb].
  rewrite ?(proj2 (Rltb_false _ _)) by lra. cbn [orb Nat.leb]. match goal with |- bind ?r _ <> _ => destruct r; discriminate end.
Qed.
Definition fit_ml (X Y : rmat) (a : R) m := mt_estimator_dense (dsort xops) (MtLassoPen a) (set_max_iterations m (opr a 3)) (Dataset (xm 3 3 X) (T2 (xm 3 2 Y))).
Lemma ex_fit_ml X Y a : 0 < a -> multi_fit (dsort xops) 3 3 2 X Y (MtLassoPen a) (settings (opr a 3)) (fit_ml X Y a) /\ accepted (fit_ml X Y a).
Proof.
  intros Ha. split; [apply (mt_fit_dense (dsort xops) 3 3 2 X Y (MtLassoPen a) (opr a 3) (T2 (xm 3 2 Y))); [left; reflexivity|reflexivity|auto]|].
  intros m e. unfold fit_ml, mt_estimator_dense, fit_unchecked, mt_lasso_check_ref, set_max_iterations, opr. cbn [p_alpha p_shape p_tolerance p_K p_ws_start_size fisneg flt f1 f0 xops xisneg xlt fle xle Nat.eqb].
  rewrite ?(proj2 (Rltb_false _ _)) by lra. cbn [orb Nat.leb]. match goal with |- bind ?r _ <> _ => destruct r; discriminate end.
Qed.
Lemma swap01 : col_perm 3 (fun j => match j with 0 => 1 | 1 => 0 | _ => j end)%nat.
Proof. unfold col_perm. simpl. apply perm_swap. Qed.

(** *** a larger [alpha] can select more features *)
Definition paX : rmat := fun i j => match i, j with 0%nat, 0%nat => 1 | 0%nat, _ => 2 | _, 0%nat => 0 | _, _ => 1 end.
Definition pay : nat -> R := fun i => match i with 0%nat => 8 | _ => -1 end.
Definition papr (a : R) : params xr := Params (Fin a) (Fin 0) 50 50 3 (Fin (1/10000)) 3 false false.
Definition fit_pa (a : R) m := estimator_dense (dsort xops) (LassoPen a) (set_max_iterations m (papr a)) (Dataset (xm 2 2 paX) (T1 (xv 2 pay))).
Lemma ex_fit_pa a : 0 <= a -> single_fit (dsort xops) 2 2 paX pay Squared (LassoPen a) (settings (papr a)) (fit_pa a) /\ accepted (fit_pa a) /\ patient 2 1 (settings (papr a)) (1/10000).
Proof.
  intros Ha. split; [apply (fit_dense (dsort xops) 2 2 paX pay (LassoPen a) (papr a) (T1 (xv 2 pay))); [left; reflexivity|reflexivity]|]. split.
  - intros m e. unfold fit_pa, estimator_dense, fit_unchecked, lasso_check_ref, set_max_iterations, papr. cbn [p_alpha p_shape p_tolerance p_K p_ws_start_size fisneg flt f1 f0 xops xisneg xlt fle xle Nat.eqb].
    rewrite ?(proj2 (Rltb_false _ _)) by lra. cbn [orb Nat.leb]. match goal with |- bind ?r _ <> _ => destruct r; discriminate end.
  - split; [reflexivity|]. split; [lra|]. cbn. split; [lia|]. split; [lia|]. split; left; reflexivity.
Qed.
(** the solutions for [alpha = 1] and [alpha = 1/4] *)
Definition pa1 : nat -> R := fun j => match j with 0%nat => 4 | _ => 1 end.
Definition pa4 : nat -> R := fun j => match j with 0%nat => 15/2 | _ => 0 end.
Lemma pa_d v j : dloss1 2 2 Squared paX pay v j = - (paX 0%nat j * (8 - (v 0%nat + 2 * v 1%nat)) + paX 1%nat j * (-1 - v 1%nat)) / 2.
Proof. cbn [dloss1]. unfold gq. rewrite ?Sum_S, ?Sum_0. unfold lin. rewrite ?Sum_S, ?Sum_0. cbn [paX pay]. simpl. field. Qed.
Lemma rsign_pos x : 0 < x -> rsign x = 1.
Proof. intros. unfold rsign. rewrite (proj2 (Rltb_false _ _)) by lra. auto. Qed.
Lemma pa1_exact : stationary 0 (loss1 Squared 2 pay) 2 paX (pen1 (LassoPen 1)) pa1.
Proof.
  rewrite stationary_iff by (try lia; simpl; lra). intros j Hj. rewrite pa_d. cbn [dist1]. unfold r_l1_score.
  destruct j as [|[|j]]; [| |lia]; cbn [pa1 paX]; rewrite (proj2 (Reqb_false _ _)), rsign_pos by lra; match goal with |- Rabs ?e <= 0 => replace e with 0 by field end; rewrite Rabs_R0; lra.
Qed.
Lemma pa4_exact : stationary 0 (loss1 Squared 2 pay) 2 paX (pen1 (LassoPen (1/4))) pa4.
Proof.
  rewrite stationary_iff by (try lia; simpl; lra). intros j Hj. rewrite pa_d. cbn [dist1]. unfold r_l1_score.
  destruct j as [|[|j]]; [| |lia]; cbn [pa4 paX].
  - rewrite (proj2 (Reqb_false _ _)), rsign_pos by lra; match goal with |- Rabs ?e <= 0 => replace e with 0 by field end; rewrite Rabs_R0; lra.
  - rewrite Reqb_refl. apply Rmax_lub; [lra|]. match goal with |- Rabs ?e - _ <= _ => replace e with 0 by field end. rewrite Rabs_R0. lra.
Qed.
Lemma quad_pa0 : quad_loss 2 pay (fun _ => 0) = 65/4.
Proof. unfold quad_loss. rewrite ?Sum_S, ?Sum_0. cbn [pay]. simpl. field. Qed.
Lemma pa4_zero : settles 2 (fun w => w 1%nat = 0) (fit_pa (1/4)).
Proof.
  destruct (ex_fit_pa (1/4) ltac:(lra)) as (A & B & C).
  destruct (screen_fit (dsort xops) xr_sort 2 2 paX pay (LassoPen (1/4)) _ _ (1/10000) (1/4) pa4 ltac:(lia) A B C eq_refl ltac:(lra) pa4_exact) as (N & w & Hw & Hall).
  exists N, w. split; auto. apply (Hw 1%nat); [lia|]. rewrite corr_grad, pa_d by lia. cbn [pa4 paX].
  match goal with |- Rabs ?e + _ + _ < _ => replace e with 0 by field end. rewrite Rabs_R0, quad_pa0.
  rewrite ?Sum_S, ?Sum_0. cbn [pa4]. rewrite Rabs_right, Rabs_R0 by lra. unfold rms. rewrite ?Sum_S, ?Sum_0. cbn [paX]. rewrite <- sqrt_mult_alt by (simpl; lra).
  match goal with |- 0 + ?s + _ < _ => assert (s <= sqrt ((1/5) ^ 2)) by (apply sqrt_le_1_alt; simpl; lra) end. rewrite sqrt_pow2 in H by lra. lra.
Qed.
Lemma pa1_both : settles 2 (fun w => w 0%nat <> 0 /\ w 1%nat <> 0) (fit_pa 1).
Proof.
  destruct (ex_fit_pa 1 ltac:(lra)) as (A & B & (Et & Ht & A1 & A2 & A3 & A4)). rewrite Nat.mul_1_r in A4.
  destruct (c27_single (dsort xops) xr_sort 2 2 ltac:(lia) _ _ _ _ _ _ A I I (1/10000) B Et Ht A1 A2 A3 A4) as (N & w & Hsw & Hall).
  exists N, w. split; auto. destruct (fit_size (dsort xops) xr_sort 2 2 paX pay Squared _ _ _ 1 N w ltac:(lia) A I eq_refl ltac:(lra) (Hall N (le_n _))) as [R1 S1].
  pose proof (agree Squared (LassoPen 1) 2 2 paX pay (1/10000) 0 w pa1 ltac:(lia) R1 I Hsw pa1_exact) as G. cbn [lossmono modulus loss1] in G, S1. rewrite quad_pa0 in S1.
  assert (D : gap 2 w pa1 <= 65/4/1 + 5). { apply gap_bound; auto. rewrite ?Sum_S, ?Sum_0. cbn [pa1]. rewrite !Rabs_right by lra. lra. }
  fold (gap 2 w pa1) in G. unfold lin in G. rewrite ?Sum_S, ?Sum_0 in G. cbn [paX pa1] in G. change (INR 2) with (1 + 1) in G.
  set (a := w 0%nat) in *. set (b := w 1%nat) in *. assert (Q : (a + 2 * b - 6) ^ 2 + (b - 1) ^ 2 <= 1/100).
  { replace ((0 + 1 * a + 2 * b - (0 + 1 * 4 + 2 * 1)) ^ 2) with ((a + 2 * b - 6) ^ 2) in G by ring. replace ((0 + 0 * a + 1 * b - (0 + 0 * 4 + 1 * 1)) ^ 2) with ((b - 1) ^ 2) in G by ring. lra. }
  pose proof (pow2_ge_0 (a + 2 * b - 6)). pose proof (pow2_ge_0 (b - 1)). split; intros E; rewrite E in *; nra.
Qed.

(** *** equal columns *)
Definition eqX : mat f64 := Mat 1 2 [map f64_of [1; 1]%Z].
Definition eqpr : params f64 := Params (f64_of 1) (f64_of 0) 50 50 2 (f64_of 0) 3 false false.
Definition eqt : targets f64 := T1 [f64_of 4].
Lemma equal_columns : exists (X : mat f64) t pr a b, mnr X = 1%nat /\ mnc X = 2%nat /\ mwf X /\ (forall i, mget X i 0 = mget X i 1) /\
  fit_unchecked (lasso_check_ref ops64) (lasso_fit_dense ops64 srt64) pr (Dataset X t) = Ret (Ok [a; b]) /\ feq ops64 a b = false.
Proof.
  assert (E : match fit_unchecked (lasso_check_ref ops64) (lasso_fit_dense ops64 srt64) eqpr (Dataset eqX eqt) with
              | Ret (Ok [a; b]) => negb (feq ops64 a b) | _ => false end = true) by (vm_compute; reflexivity).
  exists eqX, eqt, eqpr. destruct fit_unchecked as [[[|a [|b [|]]]|]|]; try discriminate. exists a, b. apply negb_true_iff in E.
  split; [reflexivity|]. split; [reflexivity|]. split; [split; [reflexivity|repeat constructor]|]. split; [|split; auto].
  intros [|[|i]]; reflexivity.
Qed.

(** *** one sample, two features, two tasks, [alpha = 1]: the second feature is not selected *)
Definition pbX : rmat := fun _ j => match j with 0%nat => 1 | _ => 1/2 end.
Definition pbY : rmat := fun _ t => match t with 0%nat => 3 | _ => 4 end.
Definition pbV : rmat := fun j t => match j, t with 0%nat, 0%nat => 12/5 | 0%nat, _ => 16/5 | _, _ => 0 end.
Definition fit_pb m := mt_estimator_dense (dsort xops) (MtLassoPen 1) (set_max_iterations m (papr 1)) (Dataset (xm 1 2 pbX) (T2 (xm 1 2 pbY))).
Lemma ex_fit_pb : multi_fit (dsort xops) 1 2 2 pbX pbY (MtLassoPen 1) (settings (papr 1)) fit_pb /\ accepted fit_pb /\ patient 2 2 (settings (papr 1)) (1/10000).
Proof.
  split; [apply (mt_fit_dense (dsort xops) 1 2 2 pbX pbY (MtLassoPen 1) (papr 1) (T2 (xm 1 2 pbY))); [left; reflexivity|reflexivity|simpl; lra]|]. split.
  - intros m e. unfold fit_pb, mt_estimator_dense, fit_unchecked, mt_lasso_check_ref, set_max_iterations, papr. cbn [p_alpha p_shape p_tolerance p_K p_ws_start_size fisneg flt f1 f0 xops xisneg xlt fle xle Nat.eqb].
    rewrite ?(proj2 (Rltb_false _ _)) by lra. cbn [orb Nat.leb]. match goal with |- bind ?r _ <> _ => destruct r; discriminate end.
  - split; [reflexivity|]. split; [lra|]. cbn. split; [lia|]. split; [lia|]. split; left; reflexivity.
Qed.
Lemma norm2_pair x y z : 0 <= z -> x * x + y * y = z * z -> norm2 [x; y] = z.
Proof. intros Hz E. unfold norm2. simpl. rewrite Rplus_0_r, E. apply sqrt_square. auto. Qed.
Lemma pb_g j t : gq 1 pbX pbY (lin_mt 2 pbX pbV) j t = - pbX 0%nat j * (match t with 0%nat => 3/5 | _ => 4/5 end).
Proof. unfold gq, lin_mt. rewrite ?Sum_S, ?Sum_0. destruct t as [|t]; cbn [pbX pbY pbV INR]; field. Qed.
Lemma pb_exact : stationary_mt 0 (quad_loss_mt 1 2 pbY) 2 2 pbX (penT (MtLassoPen 1)) pbV.
Proof.
  apply mt_lasso_stationary_iff; [lia|lra|]. intros j Hj. unfold r_l21_score, tab. cbn [seq map]. rewrite !pb_g. destruct j as [|[|j]]; [| |lia]; cbn [pbX pbV].
  - rewrite (norm2_pair _ _ 4) by lra. rewrite (proj2 (Reqb_false _ _)) by lra. cbn. right. apply norm2_pair; lra.
  - rewrite (norm2_pair 0 0 0) by lra. rewrite Reqb_refl, (norm2_pair _ _ (1/2)) by lra. apply Rmax_lub; lra.
Qed.
Lemma pb_zero : settles_mt 2 2 (fun W => W 1%nat 0%nat = 0 /\ W 1%nat 1%nat = 0) fit_pb.
Proof.
  destruct ex_fit_pb as (A & B & C).
  destruct (screen_fit_mt (dsort xops) xr_sort 1 2 2 pbX pbY 1 _ _ (1/10000) pbV ltac:(lia) ltac:(lra) A B C pb_exact) as (N & W & HW & Hall).
  exists N, W. split; auto. assert (M : norm2 (correlation_mt 1 2 2 pbX pbY pbV 1) + rms 1 (fun i => pbX i 1%nat) * sqrt (1/10000 * (Sum 1 (fun i => Sum 2 (fun t => pbY i t ^ 2)) / (2 * INR 1) / 1 + Sum 2 (fun j => norm2 (map (pbV j) (seq 0 2))))) + 1/10000 < 1).
  { rewrite corr_grad_mt by lia. unfold tab. cbn [seq map]. rewrite !pb_g. cbn [pbX]. rewrite (norm2_pair _ _ (1/2)) by lra. unfold rms. rewrite ?Sum_S, ?Sum_0. cbn [pbX pbY pbV seq map INR].
    rewrite (norm2_pair (12/5) (16/5) 4), (norm2_pair 0 0 0) by lra. rewrite <- sqrt_mult_alt by lra.
    match goal with |- _ + ?s + _ < _ => assert (s <= sqrt ((1/5) ^ 2)) by (apply sqrt_le_1_alt; lra) end. rewrite sqrt_pow2 in H by lra. lra. }
  split; apply (HW 1%nat ltac:(lia) M); lia.
Qed.
