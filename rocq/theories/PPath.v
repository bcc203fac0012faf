(** Fits with different regularisation levels, targets or column orders. *)
From Coq Require Import List ZArith Bool Arith Reals Lra Lia Permutation.
From Verif Require Import Ops Arr MUtils MDatasets MHyper MEstimators XR SpecPen VecR PBase RSum PProx SpecLin SpecData PDatafit PCalc PDataProps SpecSolve PLaws PSubdiff PDescent PConv PTheory SpecOpt PFitOpt PCert PStrict SpecNull PNullFit PMore SpecSym SpecPath.
Import ListNotations.
Open Scope R_scope.

(** *** regularisation levels *)
Lemma pen1_level k a u : convex1 k -> pen1 (with_alpha k a) u = a * pen1 (with_alpha k 1) u.
Proof. destruct k; cbn; intros H; unfold abs_pen, enet_pen; [ring|ring|contradiction]. Qed.
Lemma penT_level k a u : convexT k -> penT (with_alpha_mt k a) u = a * penT (with_alpha_mt k 1) u.
Proof. destruct k; cbn; intros H; unfold abs_pen, enet_pen; [ring|ring|contradiction]. Qed.
Lemma obj_level l k n p X y a w : convex1 k -> objective (loss1 l n y) p X (pen1 (with_alpha k a)) w = loss1 l n y (lin p X w) + a * size k p w.
Proof. intros Hc. unfold objective, size. f_equal. rewrite <- Sum_scal. apply Sum_ext. intros. apply pen1_level. auto. Qed.
Lemma obj_level_mt k n p T X Y a W : convexT k -> objective_mt (quad_loss_mt n T Y) p T X (penT (with_alpha_mt k a)) W = quad_loss_mt n T Y (lin_mt p X W) + a * size_mt k p T W.
Proof. intros Hc. unfold objective_mt, size_mt. f_equal. rewrite <- Sum_scal. apply Sum_ext. intros. apply penT_level. auto. Qed.
Lemma convex_level k a : convex1 k -> convex1 (with_alpha k a).
Proof. destruct k; auto. Qed.
Lemma convexT_level k a : convexT k -> convexT (with_alpha_mt k a).
Proof. destruct k; auto. Qed.
Lemma gap_sym p w v : gap p v w = gap p w v.
Proof. apply Sum_ext. intros. apply Rabs_minus_sym. Qed.
Lemma gap_mt_sym p T W V : gap_mt p T V W = gap_mt p T W V.
Proof.
  apply Sum_ext. intros j _. change (norm2 (tab T (fun t => V j t - W j t)) = norm2 (tab T (fun t => W j t - V j t))).
  rewrite <- !vminus_tab. apply norm2_minus_sym. rewrite !tab_length. auto.
Qed.
Lemma path_arith L1 L2 P1 P2 a1 a2 e1 e2 D : L1 + a1 * P1 <= L2 + a1 * P2 + e1 * D -> L2 + a2 * P2 <= L1 + a2 * P1 + e2 * D ->
  (a2 - a1) * (P2 - P1) <= (e1 + e2) * D /\ L1 - L2 <= a1 * (P2 - P1) + e1 * D.
Proof. intros. lra. Qed.
Lemma path_gap l k n p X y a1 a2 e1 e2 w v : (1 <= n)%nat -> convex1 k -> pen1_range (with_alpha k a1) -> pen1_range (with_alpha k a2) ->
  stationary e1 (loss1 l n y) p X (pen1 (with_alpha k a1)) w -> stationary e2 (loss1 l n y) p X (pen1 (with_alpha k a2)) v ->
  (a2 - a1) * (size k p v - size k p w) <= (e1 + e2) * gap p w v /\
  loss1 l n y (lin p X w) - loss1 l n y (lin p X v) <= a1 * (size k p v - size k p w) + e1 * gap p w v.
Proof.
  intros Hn Hc R1 R2 S1 S2. pose proof (c28_single l _ n p X y e1 w v Hn R1 (convex_level k a1 Hc) S1) as A.
  pose proof (c28_single l _ n p X y e2 v w Hn R2 (convex_level k a2 Hc) S2) as B. rewrite !obj_level in A, B by auto.
  fold (gap p w v) in A. fold (gap p v w) in B. rewrite gap_sym in B. apply path_arith; lra.
Qed.
Lemma path_gap_mt k n p T X Y a1 a2 e1 e2 W V : (1 <= n)%nat -> convexT k -> penT_range (with_alpha_mt k a1) -> penT_range (with_alpha_mt k a2) ->
  stationary_mt e1 (quad_loss_mt n T Y) p T X (penT (with_alpha_mt k a1)) W -> stationary_mt e2 (quad_loss_mt n T Y) p T X (penT (with_alpha_mt k a2)) V ->
  (a2 - a1) * (size_mt k p T V - size_mt k p T W) <= (e1 + e2) * gap_mt p T W V /\
  quad_loss_mt n T Y (lin_mt p X W) - quad_loss_mt n T Y (lin_mt p X V) <= a1 * (size_mt k p T V - size_mt k p T W) + e1 * gap_mt p T W V.
Proof.
  intros Hn Hc R1 R2 S1 S2. pose proof (c28_multi _ n p T X Y e1 W V Hn R1 (convexT_level k a1 Hc) S1) as A.
  pose proof (c28_multi _ n p T X Y e2 V W Hn R2 (convexT_level k a2 Hc) S2) as B. rewrite !obj_level_mt in A, B by auto.
  fold (gap_mt p T W V) in A. fold (gap_mt p T V W) in B. rewrite gap_mt_sym in B. apply path_arith; lra.
Qed.
(** exact solutions *)
Lemma path_exact l k n p X y a1 a2 w v : (1 <= n)%nat -> convex1 k -> pen1_range (with_alpha k a1) -> pen1_range (with_alpha k a2) -> 0 <= a1 < a2 ->
  stationary 0 (loss1 l n y) p X (pen1 (with_alpha k a1)) w -> stationary 0 (loss1 l n y) p X (pen1 (with_alpha k a2)) v ->
  size k p v <= size k p w /\ loss1 l n y (lin p X w) <= loss1 l n y (lin p X v).
Proof.
  intros Hn Hc R1 R2 Ha S1 S2. destruct (path_gap l k n p X y a1 a2 0 0 w v Hn Hc R1 R2 S1 S2) as [A B].
  assert (H : size k p v <= size k p w) by (apply Rmult_le_reg_l with (a2 - a1); lra). split; auto.
  assert (a1 * (size k p v - size k p w) <= 0); [|lra]. rewrite <- (Rmult_0_r a1). apply Rmult_le_compat_l; lra.
Qed.
Lemma path_exact_mt k n p T X Y a1 a2 W V : (1 <= n)%nat -> convexT k -> penT_range (with_alpha_mt k a1) -> penT_range (with_alpha_mt k a2) -> 0 <= a1 < a2 ->
  stationary_mt 0 (quad_loss_mt n T Y) p T X (penT (with_alpha_mt k a1)) W -> stationary_mt 0 (quad_loss_mt n T Y) p T X (penT (with_alpha_mt k a2)) V ->
  size_mt k p T V <= size_mt k p T W /\ quad_loss_mt n T Y (lin_mt p X W) <= quad_loss_mt n T Y (lin_mt p X V).
Proof.
  intros Hn Hc R1 R2 Ha S1 S2. destruct (path_gap_mt k n p T X Y a1 a2 0 0 W V Hn Hc R1 R2 S1 S2) as [A B].
  assert (H : size_mt k p T V <= size_mt k p T W) by (apply Rmult_le_reg_l with (a2 - a1); lra). split; auto.
  assert (a1 * (size_mt k p T V - size_mt k p T W) <= 0); [|lra]. rewrite <- (Rmult_0_r a1). apply Rmult_le_compat_l; lra.
Qed.

(** *** size of returned models *)
Lemma fit_size srt (VS : valid_sort xops srt) n p X y l k s fit c m w : (1 <= n)%nat -> single_fit srt n p X y l k s fit -> targets_ok l n y -> l1_weight k c -> 0 < c ->
  fit m = Ret (Ok (xv p w)) -> pen1_range k /\ Sum p (fun j => Rabs (w j)) <= loss1 l n y (fun _ => 0) / c.
Proof.
  intros Hn HF Hy Hw Hc E. assert (HS : steps_ok Rle k l n p X) by (destruct k; cbn in *; tauto).
  destruct (inv1 srt VS n p Hn X y l k s fit HF Hy HS m _ E) as (Hr & _). split; auto.
  destruct (loss_bound srt VS n p Hn X y l k s fit HF Hy HS m _ E) as (w' & E' & _ & B). specialize (B c Hw).
  pose proof (loss1_nonneg l n y (lin p X w') Hn). rewrite (Sum_ext p (fun j => Rabs (w j)) (fun j => Rabs (w' j))) by (intros j Hj; rewrite (xv_inj p w w' E' j Hj); auto).
  apply Rmult_le_reg_l with c; auto. replace (c * (loss1 l n y (fun _ => 0) / c)) with (loss1 l n y (fun _ => 0)) by (field; lra). lra.
Qed.
Lemma gap_bound p w v A B : Sum p (fun j => Rabs (w j)) <= A -> Sum p (fun j => Rabs (v j)) <= B -> gap p w v <= A + B.
Proof.
  intros H1 H2. apply Rle_trans with (Sum p (fun j => Rabs (w j)) + Sum p (fun j => Rabs (v j))); [|lra]. unfold gap. rewrite <- Sum_plus. apply Sum_le. intros j _.
  unfold Rminus. apply Rle_trans with (1 := Rabs_triang _ _). rewrite Rabs_Ropp. lra.
Qed.
Lemma gap_nonneg p w v : 0 <= gap p w v.
Proof. apply Sum_nonneg. intros. apply Rabs_pos. Qed.
Lemma fit_size_mt srt (VS : valid_sort xops srt) n p T X Y k s fit c m W : (1 <= n)%nat -> multi_fit srt n p T X Y k s fit -> l1_weight_mt k c -> 0 < c ->
  fit m = Ret (Ok (xm p T W)) -> penT_range k /\ Sum p (fun j => norm2 (map (W j) (seq 0 T))) <= Sum n (fun i => Sum T (fun t => Y i t ^ 2)) / (2 * INR n) / c.
Proof.
  intros Hn HF Hw Hc E. assert (HS : steps_ok_mt Rle k n p X) by (destruct k; cbn in *; tauto).
  split; [exact (proj1 (multi_run srt VS n p Hn T X Y k s fit HF))|].
  destruct (loss_bound_mt srt VS n p Hn T X Y k s fit HF HS m _ E) as (W' & E' & _ & B). specialize (B c Hw).
  pose proof (quad_mt_nonneg n T Y (lin_mt p X W') Hn).
  rewrite (Sum_ext p (fun j => norm2 (map (W j) (seq 0 T))) (fun j => norm2 (map (W' j) (seq 0 T)))).
  - set (L := Sum n (fun i => Sum T (fun t => Y i t ^ 2)) / (2 * INR n)) in *. apply Rmult_le_reg_l with c; auto. replace (c * (L / c)) with L by (field; lra). lra.
  - intros j Hj. f_equal. apply map_ext_in. intros t Ht. apply in_seq in Ht. apply (xm_inj p T W W' E'); lia.
Qed.
Lemma gap_bound_mt p T W V A B : Sum p (fun j => norm2 (map (W j) (seq 0 T))) <= A -> Sum p (fun j => norm2 (map (V j) (seq 0 T))) <= B -> gap_mt p T W V <= A + B.
Proof.
  intros H1 H2. apply Rle_trans with (Sum p (fun j => norm2 (map (W j) (seq 0 T))) + Sum p (fun j => norm2 (map (V j) (seq 0 T)))); [|lra].
  unfold gap_mt. rewrite <- Sum_plus. apply Sum_le. intros j _. change (norm2 (tab T (fun t => W j t - V j t)) <= norm2 (tab T (W j)) + norm2 (tab T (V j))).
  assert (Q := norm2_triang3 (tab T (W j)) (tab T (fun _ => 0)) (tab T (V j)) ltac:(rewrite !tab_length; auto) ltac:(rewrite !tab_length; auto)).
  rewrite (norm2_minus_sym (tab T (fun _ => 0))) in Q by (rewrite !tab_length; auto). rewrite !vminus_tab in Q.
  rewrite (tab_ext T (fun t => W j t - 0) (W j)), (tab_ext T (fun t => V j t - 0) (V j)) in Q by (intros; ring). lra.
Qed.
Lemma gap_mt_nonneg p T W V : 0 <= gap_mt p T W V.
Proof. apply Sum_nonneg. intros. apply norm2_pos. Qed.

Lemma path_final P1 P2 L1 L2 a1 a2 t1 t2 D B : a1 < a2 -> 0 <= a1 -> 0 <= t1 -> 0 <= t2 -> 0 <= D -> D <= B ->
  (a2 - a1) * (P2 - P1) <= (t1 + t2) * D -> L1 - L2 <= a1 * (P2 - P1) + t1 * D ->
  P2 <= P1 + (t1 + t2) * B / (a2 - a1) /\ L1 <= L2 + (t1 + a1 * (t1 + t2) / (a2 - a1)) * B.
Proof.
  intros Ha H0 T1 T2 HD HB H1 H2. assert (E1 : (t1 + t2) * D <= (t1 + t2) * B) by (apply Rmult_le_compat_l; lra).
  assert (E2 : t1 * D <= t1 * B) by (apply Rmult_le_compat_l; lra).
  assert (K : P2 - P1 <= (t1 + t2) * B / (a2 - a1)).
  { apply Rmult_le_reg_l with (a2 - a1); [lra|]. replace ((a2 - a1) * ((t1 + t2) * B / (a2 - a1))) with ((t1 + t2) * B) by (field; lra). lra. }
  split; [lra|]. assert (a1 * (P2 - P1) <= a1 * ((t1 + t2) * B / (a2 - a1))) by (apply Rmult_le_compat_l; lra).
  replace ((t1 + a1 * (t1 + t2) / (a2 - a1)) * B) with (t1 * B + a1 * ((t1 + t2) * B / (a2 - a1))) by (field; lra). lra.
Qed.
Lemma path_fits srt srt' (VS : valid_sort xops srt) (VS' : valid_sort xops srt') n p X y l k a1 a2 s s' fit fit' t1 t2 c1 c2 : (1 <= n)%nat -> 0 <= a1 < a2 -> targets_ok l n y ->
  single_fit srt n p X y l (with_alpha k a1) s fit -> single_fit srt' n p X y l (with_alpha k a2) s' fit' -> accepted fit -> accepted fit' ->
  patient p 1 s t1 -> patient p 1 s' t2 -> l1_weight (with_alpha k a1) c1 -> 0 < c1 -> l1_weight (with_alpha k a2) c2 -> 0 < c2 ->
  let B := loss1 l n y (fun _ => 0) / c1 + loss1 l n y (fun _ => 0) / c2 in
  exists N w v, (forall m, (N <= m)%nat -> fit m = Ret (Ok (xv p w)) /\ fit' m = Ret (Ok (xv p v))) /\
    size k p v <= size k p w + (t1 + t2) * B / (a2 - a1) /\
    loss1 l n y (lin p X w) <= loss1 l n y (lin p X v) + (t1 + a1 * (t1 + t2) / (a2 - a1)) * B.
Proof.
  intros Hn Ha Hy HF HF' Hacc Hacc' (Et & Ht & A1 & A2 & A3 & A4) (Et' & Ht' & B1 & B2 & B3 & B4) Hw1 Hc1 Hw2 Hc2 B. rewrite Nat.mul_1_r in A4, B4.
  assert (Hcx : convex1 k) by (clear - Hw1; destruct k; cbn in *; tauto).
  assert (HS : forall a cmp, steps_ok cmp (with_alpha k a) l n p X) by (clear - Hcx; intros; destruct k; cbn in *; tauto).
  destruct (c27_single srt VS n p Hn _ _ _ _ _ _ HF Hy (HS _ _) t1 Hacc Et Ht A1 A2 A3 A4) as (N & w & Hw & Hall).
  destruct (c27_single srt' VS' n p Hn _ _ _ _ _ _ HF' Hy (HS _ _) t2 Hacc' Et' Ht' B1 B2 B3 B4) as (N' & v & Hv & Hall').
  exists (Nat.max N N'), w, v. split; [intros m Hm; split; [apply Hall|apply Hall']; lia|].
  destruct (fit_size srt VS n p X y l _ s fit c1 N w Hn HF Hy Hw1 Hc1 (Hall N (le_n _))) as [R1 S1].
  destruct (fit_size srt' VS' n p X y l _ s' fit' c2 N' v Hn HF' Hy Hw2 Hc2 (Hall' N' (le_n _))) as [R2 S2].
  destruct (path_gap l k n p X y a1 a2 t1 t2 w v Hn Hcx R1 R2 Hw Hv) as [G1 G2].
  apply (path_final (size k p w) (size k p v) _ _ a1 a2 t1 t2 (gap p w v) B); try lra; [apply gap_nonneg|apply gap_bound; auto].
Qed.
Lemma path_fits_mt srt srt' (VS : valid_sort xops srt) (VS' : valid_sort xops srt') n p T X Y a1 a2 s s' fit fit' t1 t2 : (1 <= n)%nat -> 0 < a1 < a2 ->
  multi_fit srt n p T X Y (MtLassoPen a1) s fit -> multi_fit srt' n p T X Y (MtLassoPen a2) s' fit' -> accepted fit -> accepted fit' ->
  patient p T s t1 -> patient p T s' t2 ->
  let L0 := Sum n (fun i => Sum T (fun t => Y i t ^ 2)) / (2 * INR n) in let B := L0 / a1 + L0 / a2 in
  let size := fun W : rmat => Sum p (fun j => norm2 (map (W j) (seq 0 T))) in
  exists N W V, (forall m, (N <= m)%nat -> fit m = Ret (Ok (xm p T W)) /\ fit' m = Ret (Ok (xm p T V))) /\
    size V <= size W + (t1 + t2) * B / (a2 - a1) /\
    quad_loss_mt n T Y (lin_mt p X W) <= quad_loss_mt n T Y (lin_mt p X V) + (t1 + a1 * (t1 + t2) / (a2 - a1)) * B.
Proof.
  intros Hn Ha HF HF' Hacc Hacc' (Et & Ht & A1 & A2 & A3 & A4) (Et' & Ht' & B1 & B2 & B3 & B4) L0 B sz.
  destruct (c27_multi srt VS n p Hn T X Y a1 s fit HF t1 Hacc Et Ht A1 A2 A3 A4) as (N & W & HW & Hall).
  destruct (c27_multi srt' VS' n p Hn T X Y a2 s' fit' HF' t2 Hacc' Et' Ht' B1 B2 B3 B4) as (N' & V & HV & Hall').
  exists (Nat.max N N'), W, V. split; [intros m Hm; split; [apply Hall|apply Hall']; lia|].
  destruct (fit_size_mt srt VS n p T X Y _ s fit a1 N W Hn HF eq_refl ltac:(lra) (Hall N (le_n _))) as [R1 S1].
  destruct (fit_size_mt srt' VS' n p T X Y _ s' fit' a2 N' V Hn HF' eq_refl ltac:(lra) (Hall' N' (le_n _))) as [R2 S2].
  destruct (path_gap_mt (MtLassoPen 1) n p T X Y a1 a2 t1 t2 W V Hn I R1 R2 HW HV) as [G1 G2].
  assert (ES : forall U, size_mt (MtLassoPen 1) p T U = sz U).
  { intros U. unfold size_mt, sz. apply Sum_ext. intros. cbn [with_alpha_mt penT]. unfold abs_pen. rewrite Rabs_right by (apply Rle_ge, norm2_pos). ring. }
  rewrite !ES in G1, G2.
  apply (path_final (sz W) (sz V) _ _ a1 a2 t1 t2 (gap_mt p T W V) B); try lra; [apply gap_mt_nonneg|apply gap_bound_mt; auto].
Qed.
