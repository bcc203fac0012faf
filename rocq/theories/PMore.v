(** Consequences for users: size of the returned coefficients, the null model of logistic
    regression, agreement of converged models. *)
From Coq Require Import List ZArith Bool Arith Reals Lra Lia.
From Verif Require Import Ops Arr MUtils MDatasets MHyper MEstimators XR SpecPen VecR PBase RSum PProx SpecLin SpecData PDatafit PCalc PDataProps SpecSolve PLaws PSubdiff PDescent PConv PTheory SpecOpt PFitOpt PCert PStrict SpecNull PNullFit.
Import ListNotations.
Open Scope R_scope.

(** *** bounds *)
Lemma lin_0 p X i : lin p X (fun _ => 0) i = 0.
Proof. apply Sum_zero. intros. ring. Qed.
Lemma loss1_ext l n y z z' : (forall i, (i < n)%nat -> z i = z' i) -> loss1 l n y z = loss1 l n y z'.
Proof. intros E. destruct l; cbn [loss1]; unfold quad_loss, logistic_loss; f_equal; apply Sum_ext; intros; rewrite E; auto. Qed.
Lemma pen1_nonneg k u : pen1_range k -> 0 <= pen1 k u.
Proof.
  destruct k as [a|a r|a g]; cbn [pen1_range pen1]; intros H.
  - apply Rmult_le_pos; [lra|apply Rabs_pos].
  - unfold enet_pen. apply Rmult_le_pos; [lra|]. pose proof (Rabs_pos u). pose proof (pow2_ge_0 u).
    apply Rplus_le_le_0_compat; apply Rmult_le_pos; lra.
  - unfold mcp_pen. pose proof (Rabs_pos u). pose proof (pow2_ge_0 u). destruct (Rle_dec (Rabs u) (g * a)) as [Hle|Hgt].
    + rewrite <- (pow2_abs u). assert (E : Rabs u ^ 2 / (2 * g) <= a * Rabs u / 2).
      { apply Rmult_le_reg_r with (2 * g); [lra|]. replace (Rabs u ^ 2 / (2 * g) * (2 * g)) with (Rabs u * Rabs u) by (field; lra).
        replace (a * Rabs u / 2 * (2 * g)) with (Rabs u * (g * a)) by field. apply Rmult_le_compat_l; auto. }
      assert (0 <= a * Rabs u) by (apply Rmult_le_pos; lra). lra.
    + assert (0 <= g * a ^ 2) by (apply Rmult_le_pos; [lra|apply pow2_ge_0]). lra.
Qed.
Lemma pen1_at_0 k : pen1_range k -> pen1 k 0 = 0.
Proof.
  destruct k as [a|a r|a g]; cbn [pen1_range pen1]; intros H; unfold abs_pen, enet_pen, mcp_pen; rewrite Rabs_R0; try ring.
  assert (0 <= g * a) by (apply Rmult_le_pos; lra). destruct (Rle_dec 0 (g * a)); [|lra]. field. lra.
Qed.
Lemma loss1_0 l n y : (1 <= n)%nat -> loss1 l n y (fun _ => 0) = match l with Squared => Sum n (fun i => y i ^ 2) / (2 * INR n) | Logistic => ln 2 end.
Proof.
  intros Hn. pose proof (INR_npos n Hn). destruct l; cbn [loss1].
  - unfold quad_loss. f_equal. apply Sum_ext. intros. ring.
  - unfold logistic_loss. rewrite (Sum_ext n _ (fun _ => ln 2)), Sum_const; [field; lra|]. intros i _. f_equal. rewrite Rmult_0_r, Ropp_0, exp_0. lra.
Qed.
Lemma obj_0 l k n p X y : pen1_range k -> objective (loss1 l n y) p X (pen1 k) (fun _ => 0) = loss1 l n y (fun _ => 0).
Proof.
  intros Hr. unfold objective. rewrite (loss1_ext l n y _ (fun _ => 0)) by (intros; apply lin_0). rewrite Sum_zero; [lra|]. intros. apply pen1_at_0; auto.
Qed.
Section Bound.
Context (srt : list xr -> list nat) (VS : valid_sort xops srt) (n p : nat) (Hn : (1 <= n)%nat).
Lemma loss_bound X y l k s fit : single_fit srt n p X y l k s fit -> targets_ok l n y -> steps_ok Rle k l n p X ->
  forall m v, fit m = Ret (Ok v) -> exists w, v = xv p w /\ loss1 l n y (lin p X w) + Sum p (fun j => pen1 k (w j)) <= loss1 l n y (fun _ => 0) /\
    (forall c, l1_weight k c -> loss1 l n y (lin p X w) + c * Sum p (fun j => Rabs (w j)) <= loss1 l n y (fun _ => 0)).
Proof.
  intros HF Hy HS m v Ev. destruct (inv1 srt VS n p Hn X y l k s fit HF Hy HS m v Ev) as (Hr & W & Z & _ & -> & _ & _ & HO).
  exists (fun j => W j 0%nat). split; [reflexivity|]. rewrite obj_0 in HO by auto. unfold objective in HO. split; auto.
  intros c Hc. rewrite <- Sum_scal. assert (Sum p (fun j => c * Rabs (W j 0%nat)) <= Sum p (fun j => pen1 k (W j 0%nat))) by (apply Sum_le; intros; apply pen1_l1; auto). lra.
Qed.
Lemma loss_bound_mt T X Y k s fit : multi_fit srt n p T X Y k s fit -> steps_ok_mt Rle k n p X ->
  forall m v, fit m = Ret (Ok v) -> exists W, v = xm p T W /\ quad_loss_mt n T Y (lin_mt p X W) + Sum p (fun j => penT k (map (W j) (seq 0 T))) <= Sum n (fun i => Sum T (fun t => Y i t ^ 2)) / (2 * INR n) /\
    (forall c, l1_weight_mt k c -> quad_loss_mt n T Y (lin_mt p X W) + c * Sum p (fun j => norm2 (map (W j) (seq 0 T))) <= Sum n (fun i => Sum T (fun t => Y i t ^ 2)) / (2 * INR n)).
Proof.
  intros HF HS m v Ev. pose proof (proj1 (multi_run srt VS n p Hn T X Y k s fit HF)) as Hr.
  destruct (c25_multi srt VS n p Hn T X Y k s fit HF HS m v Ev) as (W & -> & HO). exists W. split; [reflexivity|].
  assert (E0 : objective_mt (quad_loss_mt n T Y) p T X (penT k) (fun _ _ => 0) = Sum n (fun i => Sum T (fun t => Y i t ^ 2)) / (2 * INR n)).
  { unfold objective_mt. rewrite (Sum_zero p).
    - rewrite Rplus_0_r. unfold quad_loss_mt. f_equal. apply Sum_ext. intros i Hi. apply Sum_ext. intros t Ht. f_equal. unfold lin_mt. rewrite Sum_zero; [ring|]. intros. ring.
    - intros j _. change (map (fun _ => 0) (seq 0 T)) with (tab T (fun _ => 0)). rewrite tab_zero by auto.
      destruct k as [a|a r|a g]; cbn [penT penT_range] in *; rewrite norm2_0; [exact (pen1_at_0 (LassoPen a) ltac:(cbn; lra))|exact (pen1_at_0 (EnetPen a r) ltac:(cbn; lra))|exact (pen1_at_0 (McpPen a g) ltac:(cbn; lra))]. }
  rewrite E0 in HO. unfold objective_mt in HO. split; auto. intros c Hc. rewrite <- Sum_scal.
  assert (Sum p (fun j => c * norm2 (map (W j) (seq 0 T))) <= Sum p (fun j => penT k (map (W j) (seq 0 T)))) by (apply Sum_le; intros; apply penT_l1; auto). lra.
Qed.
(** *** null model, logistic *)
Lemma grad0_log X y j : Rabs (dloss1 n p Logistic X y (fun _ => 0) j) = Rabs (xty n X y j) / (2 * INR n).
Proof.
  pose proof (INR_npos n Hn) as HN. cbn [dloss1]. unfold gl.
  rewrite (Sum_ext n _ (fun i => X i j * y i * (1/2))).
  - rewrite Sum_scal_r. replace (- (Sum n (fun i => X i j * y i) * (1 / 2)) / INR n) with (- (Sum n (fun i => X i j * y i) / (2 * INR n))) by (field; lra).
    rewrite Rabs_Ropp. unfold Rdiv at 1. rewrite Rabs_mult, (Rabs_right (/ _)); [reflexivity|]. left. apply Rinv_0_lt_compat. lra.
  - intros i _. unfold sig. rewrite lin_0. rewrite Rmult_0_r, Ropp_0, exp_0. field.
Qed.
(** [alpha_max] reports the level of the squared loss; the level of the logistic loss is half of it *)
Lemma zero_iff_log X y k am eps : reported_alpha_max n p X y am -> pen1_range k -> 0 <= eps ->
  (stationary eps (loss1 Logistic n y) p X (pen1 k) (fun _ => 0) <-> am / 2 <= slope k + eps).
Proof.
  intros Ham Hr He. pose proof (INR_npos n Hn) as HN. rewrite stationary_iff by auto. destruct (largest_div n p (xty n X y) Hn) as [H1 H2]. rewrite <- (am_value n p X y am Hn Ham) in *.
  assert (EG : forall j, Rabs (dloss1 n p Logistic X y (fun _ => 0) j) = Rabs (xty n X y j) / INR n / 2) by (intros; rewrite grad0_log; field; lra). split.
  - intros H. destruct (Rle_dec (am / 2) (slope k + eps)) as [|Hno]; auto. exfalso.
    assert (Hs : 0 <= slope k) by (destruct k; cbn [slope pen1_range] in *; try lra; apply Rmult_le_pos; lra).
    destruct H2 as (j & Hj & E); [lra|]. specialize (H j Hj). rewrite dist1_0, EG, E in H. pose proof (Rmax_r 0 (am / 2 - slope k)). lra.
  - intros H j Hj. rewrite dist1_0, EG. specialize (H1 j Hj). apply Rmax_lub; lra.
Qed.
Lemma log_null X y k am s fit tol : reported_alpha_max n p X y am -> single_fit srt n p X y Logistic k s fit -> s_tolerance s = Fin tol -> 0 <= tol ->
  accepted fit -> am / 2 <= slope k + tol -> forall m, fit m = Ret (Ok (xv p (fun _ => 0))).
Proof.
  intros Ham HF Et Htol Hacc Hle m. destruct (single_run srt VS n p Hn X y Logistic k s fit HF) as [(e & He)|[Hr Hgo]]; [exfalso; apply (Hacc 0%nat e); auto|].
  apply (c29_single srt VS n p Hn X y Logistic k s fit HF tol 0 m (fun _ => 0) Et ltac:(lia)); [rewrite Hgo; reflexivity|]. apply (zero_iff_log X y k am tol Ham Hr Htol). auto.
Qed.
Lemma log_sharp X y k am s fit tol : reported_alpha_max n p X y am -> single_fit srt n p X y Logistic k s fit -> s_tolerance s = Fin tol -> 0 <= tol ->
  targets_ok Logistic n y -> steps_ok Rlt k Logistic n p X -> (1 <= s_ws_start_size s)%nat -> (1 <= s_max_epochs s)%nat -> slope k + tol < am / 2 ->
  forall m v, (1 <= m)%nat -> fit m = Ret (Ok v) ->
  exists w, v = xv p w /\ objective (loss1 Logistic n y) p X (pen1 k) w < objective (loss1 Logistic n y) p X (pen1 k) (fun _ => 0) /\ exists j, (j < p)%nat /\ w j <> 0.
Proof.
  intros Ham HF Et Htol Hy HS Hw Hme Hlt m v Hm Ev. destruct (inv1 srt VS n p Hn X y Logistic k s fit HF Hy (steps_lt_le n p k Logistic X HS) m v Ev) as (Hr & _).
  assert (E0 : fit 0%nat = Ret (Ok (xv p (fun _ => 0)))).
  { destruct (single_run srt VS n p Hn X y Logistic k s fit HF) as [Hrej|[_ Hgo]]; [exfalso; eapply not_rejected; eauto|]. rewrite Hgo. reflexivity. }
  destruct (strict_single srt VS n p Hn X y Logistic k s fit HF Hy HS tol 0 m (fun _ => 0) v Et Htol Hw Hme Hm E0) as (w & -> & Hobj); auto.
  - rewrite (zero_iff_log X y k am) by auto. lra.
  - exists w. split; auto. split; auto. destruct (existsb (fun j => negb (Reqb (w j) 0)) (seq 0 p)) eqn:Ex.
    + apply existsb_exists in Ex as (j & Hj & Ej). apply in_seq in Hj. exists j. split; [lia|]. apply negb_true_iff in Ej. rb. auto.
    + exfalso. rewrite (objf_ext srt n p X y Logistic k s fit HF Hy (steps_lt_le n p k Logistic X HS) w (fun _ => 0)) in Hobj; [lra|].
      intros j Hj. destruct (Reqb (w j) 0) eqn:Ej; [rb; auto|]. exfalso. assert (existsb (fun j => negb (Reqb (w j) 0)) (seq 0 p) = true); [|congruence].
      apply existsb_exists. exists j. rewrite Ej. split; auto. apply in_seq. lia.
Qed.
End Bound.

(** *** agreement of two models with small violations *)
(** modulus of strong convexity of the penalty *)
Lemma sq_seg u v t : (u + t * (v - u)) ^ 2 = (1 - t) * u ^ 2 + t * v ^ 2 - t * (1 - t) * (v - u) ^ 2.
Proof. ring. Qed.
Definition strong (mu : R) (phi : R -> R) : Prop := forall a b t, 0 <= t <= 1 -> phi (a + t * (b - a)) <= (1 - t) * phi a + t * phi b - t * (1 - t) * (mu / 2 * (b - a) ^ 2).
Lemma strong_grad mu phi w s : 0 <= mu -> strong mu phi -> subgrad phi w s -> forall x, phi w + s * (x - w) + mu / 2 * (x - w) ^ 2 <= phi x.
Proof.
  intros Hmu HC (m & Hm & H) x. pose proof (pow2_ge_0 (x - w)) as Hs.
  apply (vanish _ ((m + mu / 2) * (x - w) ^ 2)); [apply Rmult_le_pos; lra|]. intros t Ht.
  specialize (H (w + t * (x - w))). specialize (HC w x t ltac:(lra)). replace (w + t * (x - w) - w) with (t * (x - w)) in H by ring.
  apply Rmult_le_reg_l with t; [lra|]. rewrite Rpow_mult_distr in H. set (D := (x - w) ^ 2) in *. set (E := x - w) in *.
  assert (E1 : t * (phi w + s * E + mu / 2 * D - t * ((m + mu / 2) * D)) = t * phi w + s * (t * E) - m * (t ^ 2 * D) + t * (1 - t) * (mu / 2 * D)) by ring. lra.
Qed.
Definition modulus (k : single_pen) : R := match k with EnetPen a r => a * (1 - r) | _ => 0 end.
Lemma modulus_nonneg k : pen1_range k -> 0 <= modulus k.
Proof. destruct k; cbn [pen1_range modulus]; intros; try lra. apply Rmult_le_pos; lra. Qed.
Lemma pen1_strong k : pen1_range k -> convex1 k -> strong (modulus k) (pen1 k).
Proof.
  destruct k as [a|a r|]; cbn [pen1_range convex1 modulus pen1]; intros Hr Hc; [| |contradiction]; intros u v t Ht.
  - pose proof (abs_convex a Hr u v t Ht). lra.
  - unfold enet_pen. rewrite sq_seg. pose proof (abs_convex (a * r) ltac:(apply Rmult_le_pos; lra) u v t Ht) as H. unfold abs_pen in H.
    set (A := Rabs (u + t * (v - u))) in *. assert (E : a * (r * A + (1 - r) / 2 * ((1 - t) * u ^ 2 + t * v ^ 2 - t * (1 - t) * (v - u) ^ 2)) =
      a * r * A + (1 - t) * (a * ((1 - r) / 2 * u ^ 2)) + t * (a * ((1 - r) / 2 * v ^ 2)) - t * (1 - t) * (a * (1 - r) / 2 * (v - u) ^ 2)) by field.
    rewrite E. lra.
Qed.
(** inner product of the difference of the gradients with the difference of the models *)
Definition lossmono (l : single_loss) (n p : nat) (X : rmat) (w v : nat -> R) : R :=
  match l with Squared => Sum n (fun i => (lin p X w i - lin p X v i) ^ 2) / INR n | Logistic => 0 end.
Lemma lin_minus p X w v i : lin p X (fun j => w j - v j) i = lin p X w i - lin p X v i.
Proof. unfold lin. rewrite <- Sum_minus. apply Sum_ext. intros. ring. Qed.
Lemma loss_mono l n p X y w v : (1 <= n)%nat -> lossmono l n p X w v <= Sum p (fun j => (dloss1 n p l X y w j - dloss1 n p l X y v j) * (w j - v j)).
Proof.
  intros Hn. pose proof (INR_npos n Hn) as HN. destruct l; cbn [lossmono].
  - right. cbn [dloss1]. unfold gq.
    rewrite (Sum_ext p _ (fun j => Sum n (fun i => X i j * (lin p X w i - lin p X v i) * (w j - v j)) / INR n)).
    + rewrite Sum_div. f_equal. rewrite Sum_swap. apply Sum_ext. intros i Hi.
      rewrite (Sum_ext p _ (fun j => (lin p X w i - lin p X v i) * (X i j * (w j - v j)))) by (intros; ring). rewrite Sum_scal.
      change (Sum p (fun j => X i j * (w j - v j))) with (lin p X (fun j => w j - v j) i). rewrite lin_minus. ring.
    + intros j Hj. rewrite Sum_scal_r. rewrite (Sum_ext n (fun i => X i j * (lin p X w i - lin p X v i)) (fun i => X i j * lin p X w i - X i j * lin p X v i)) by (intros; ring). rewrite Sum_minus. field. lra.
  - pose proof (loss1_convex Logistic n p X y w v Hn) as A. pose proof (loss1_convex Logistic n p X y v w Hn) as B.
    rewrite (Sum_ext p (fun j => (_ - _) * _) (fun j => - (dloss1 n p Logistic X y w j * (v j - w j)) - dloss1 n p Logistic X y v j * (w j - v j))) by (intros; ring).
    rewrite Sum_minus, Sum_opp. lra.
Qed.
Lemma agree l k n p X y e1 e2 w v : (1 <= n)%nat -> pen1_range k -> convex1 k ->
  stationary e1 (loss1 l n y) p X (pen1 k) w -> stationary e2 (loss1 l n y) p X (pen1 k) v ->
  lossmono l n p X w v + modulus k * Sum p (fun j => (w j - v j) ^ 2) <= (e1 + e2) * Sum p (fun j => Rabs (w j - v j)).
Proof.
  intros Hn Hr Hc H1 H2. pose proof (loss_mono l n p X y w v Hn) as HL. pose proof (modulus_nonneg k Hr) as Hmu. pose proof (pen1_strong k Hr Hc) as HS.
  assert (A : Sum p (fun j => (dloss1 n p l X y w j - dloss1 n p l X y v j) * (w j - v j)) + modulus k * Sum p (fun j => (w j - v j) ^ 2) <= (e1 + e2) * Sum p (fun j => Rabs (w j - v j))); [|lra].
  rewrite <- !Sum_scal, <- Sum_plus. apply Sum_le. intros j Hj.
  destruct (H1 j Hj) as (d & (g & Dg & (_ & s & Hs & Ed)) & Hd). destruct (H2 j Hj) as (d' & (g' & Dg' & (_ & s' & Hs' & Ed')) & Hd').
  assert (g = dloss1 n p l X y w j) as -> by (eapply uniqueness_limite; [exact Dg|apply loss1_deriv; auto]).
  assert (g' = dloss1 n p l X y v j) as -> by (eapply uniqueness_limite; [exact Dg'|apply loss1_deriv; auto]).
  pose proof (strong_grad _ _ _ _ Hmu HS Hs (v j)) as Q1. pose proof (strong_grad _ _ _ _ Hmu HS Hs' (w j)) as Q2.
  set (G := dloss1 n p l X y w j) in *. set (G' := dloss1 n p l X y v j) in *.
  assert (B1 : - (- G - s) * (w j - v j) <= e1 * Rabs (w j - v j)).
  { apply Rle_trans with (1 := Rle_abs _). rewrite Rabs_mult, Rabs_Ropp, Ed. apply Rmult_le_compat_r; [apply Rabs_pos|auto]. }
  assert (B2 : (- G' - s') * (w j - v j) <= e2 * Rabs (w j - v j)).
  { apply Rle_trans with (1 := Rle_abs _). rewrite Rabs_mult, Ed'. apply Rmult_le_compat_r; [apply Rabs_pos|auto]. }
  replace ((v j - w j) ^ 2) with ((w j - v j) ^ 2) in Q1 by ring. set (D := (w j - v j) ^ 2) in *.
  assert (E : (G - G') * (w j - v j) = - (- G - s) * (w j - v j) + (- G' - s') * (w j - v j) + s * (v j - w j) + s' * (w j - v j)) by ring. lra.
Qed.
Lemma cs_count p f : (Sum p (fun j => Rabs (f j))) ^ 2 <= INR p * Sum p (fun j => f j ^ 2).
Proof.
  pose proof (Sum_CS p (fun _ => 1) (fun j => Rabs (f j))) as H. rewrite (Sum_ext p (fun j => 1 * _) (fun j => Rabs (f j))) in H by (intros; ring).
  rewrite (Sum_ext p (fun _ => 1 ^ 2) (fun _ => 1)), Sum_const in H by (intros; ring). rewrite (Sum_ext p (fun j => Rabs (f j) ^ 2) (fun j => f j ^ 2)) in H by (intros; apply pow2_abs). lra.
Qed.
Lemma gap_from mu e p S1 S2 : 0 < mu -> 0 <= e -> 0 <= p -> 0 <= S1 -> 0 <= S2 -> mu * S2 <= e * S1 -> S1 ^ 2 <= p * S2 -> S2 <= p * (e / mu) ^ 2.
Proof.
  intros Hmu He Hp H1 H2 H HC. destruct (Rle_lt_or_eq_dec 0 S2 H2) as [Hq|<-]; [|apply Rmult_le_pos; [auto|apply pow2_ge_0]].
  assert (A : (mu * S2) ^ 2 <= (e * S1) ^ 2) by (apply pow_incr; split; auto; apply Rmult_le_pos; lra).
  assert (B : (e * S1) ^ 2 <= e ^ 2 * (p * S2)) by (rewrite Rpow_mult_distr; apply Rmult_le_compat_l; [apply pow2_ge_0|auto]).
  apply Rmult_le_reg_l with (mu ^ 2 * S2); [apply Rmult_lt_0_compat; auto; apply pow_lt; auto|].
  replace (mu ^ 2 * S2 * (p * (e / mu) ^ 2)) with (e ^ 2 * (p * S2)) by (field; lra). replace (mu ^ 2 * S2 * S2) with ((mu * S2) ^ 2) by ring. lra.
Qed.
Lemma enet_agree l a r n p X y e1 e2 w v : (1 <= n)%nat -> 0 < a -> 0 <= r < 1 -> 0 <= e1 + e2 ->
  stationary e1 (loss1 l n y) p X (pen1 (EnetPen a r)) w -> stationary e2 (loss1 l n y) p X (pen1 (EnetPen a r)) v ->
  Sum p (fun j => (w j - v j) ^ 2) <= INR p * ((e1 + e2) / (a * (1 - r))) ^ 2.
Proof.
  intros Hn Ha Hr He H1 H2. pose proof (agree l (EnetPen a r) n p X y e1 e2 w v Hn ltac:(cbn; lra) I H1 H2) as H. cbn [modulus] in H.
  assert (HL : 0 <= lossmono l n p X w v).
  { destruct l; cbn [lossmono]; [|lra]. pose proof (INR_npos n Hn). apply Rmult_le_pos; [apply Sum_nonneg; intros; apply pow2_ge_0|left; apply Rinv_0_lt_compat; lra]. }
  apply gap_from with (S1 := Sum p (fun j => Rabs (w j - v j))); auto; try lra.
  - apply Rmult_lt_0_compat; lra.
  - apply pos_INR.
  - apply Sum_nonneg. intros. apply Rabs_pos.
  - apply Sum_nonneg. intros. apply pow2_ge_0.
  - apply (cs_count p (fun j => w j - v j)).
Qed.
Lemma fits_agree srt srt' (VS : valid_sort xops srt) (VS' : valid_sort xops srt') n p X y l k s s' fit fit' c e1 e2 : (1 <= n)%nat ->
  single_fit srt n p X y l k s fit -> single_fit srt' n p X y l k s' fit' -> targets_ok l n y -> l1_weight k c -> 0 < c -> 0 <= e1 + e2 ->
  forall m m' w v, fit m = Ret (Ok (xv p w)) -> fit' m' = Ret (Ok (xv p v)) ->
  stationary e1 (loss1 l n y) p X (pen1 k) w -> stationary e2 (loss1 l n y) p X (pen1 k) v ->
  lossmono l n p X w v <= (e1 + e2) * (2 * loss1 l n y (fun _ => 0) / c).
Proof.
  intros Hn HF HF' Hy Hw Hc He m m' w v Ew Ev H1 H2. assert (HS : steps_ok Rle k l n p X) by (destruct k; cbn in *; tauto).
  assert (Hcx : convex1 k) by (clear - Hw; destruct k; cbn in *; tauto).
  destruct (inv1 srt VS n p Hn X y l k s fit HF Hy HS m _ Ew) as (Hr & _).
  destruct (loss_bound srt VS n p Hn X y l k s fit HF Hy HS m _ Ew) as (w' & E & _ & B). destruct (loss_bound srt' VS' n p Hn X y l k s' fit' HF' Hy HS m' _ Ev) as (v' & E' & _ & B').
  specialize (B c Hw). specialize (B' c Hw). pose proof (loss1_nonneg l n y (lin p X w') Hn). pose proof (loss1_nonneg l n y (lin p X v') Hn).
  pose proof (agree l k n p X y e1 e2 w v Hn Hr Hcx H1 H2) as A. pose proof (modulus_nonneg k Hr) as Hmu.
  assert (0 <= modulus k * Sum p (fun j => (w j - v j) ^ 2)) by (apply Rmult_le_pos; auto; apply Sum_nonneg; intros; apply pow2_ge_0).
  apply Rle_trans with ((e1 + e2) * Sum p (fun j => Rabs (w j - v j))); [lra|]. apply Rmult_le_compat_l; auto.
  apply Rmult_le_reg_l with c; auto. replace (c * (2 * loss1 l n y (fun _ => 0) / c)) with (2 * loss1 l n y (fun _ => 0)) by (field; lra).
  assert (T : Sum p (fun j => Rabs (w j - v j)) <= Sum p (fun j => Rabs (w' j)) + Sum p (fun j => Rabs (v' j))).
  { rewrite <- Sum_plus. apply Sum_le. intros j Hj. rewrite (xv_inj p w w' E j Hj), (xv_inj p v v' E' j Hj). unfold Rminus. apply Rle_trans with (1 := Rabs_triang _ _). rewrite Rabs_Ropp. lra. }
  apply Rle_trans with (c * (Sum p (fun j => Rabs (w' j)) + Sum p (fun j => Rabs (v' j)))); [apply Rmult_le_compat_l; lra|lra].
Qed.
(** several tasks *)
Definition modulus_mt (k : multi_pen) : R := match k with MtEnetPen a r => a * (1 - r) | _ => 0 end.
Lemma modulus_mt_nonneg k : penT_range k -> 0 <= modulus_mt k.
Proof. destruct k; cbn [penT_range modulus_mt]; intros; try lra. apply Rmult_le_pos; lra. Qed.
Lemma penT_strong k T f g t : penT_range k -> convexT k -> 0 <= t <= 1 ->
  penT k (tab T (fun i => f i + t * (g i - f i))) <= (1 - t) * penT k (tab T f) + t * penT k (tab T g) - t * (1 - t) * (modulus_mt k / 2 * Sum T (fun i => (g i - f i) ^ 2)).
Proof.
  intros Hr Hc Ht. destruct k as [a|a r|]; cbn [convexT] in Hc; [| |contradiction].
  - pose proof (penT_seg (MtLassoPen a) T f g t Hr I Ht). cbn [modulus_mt]. lra.
  - cbn [penT_range modulus_mt penT] in *. unfold enet_pen. rewrite !norm2_tab.
    rewrite (Sum_ext T (fun i => (f i + t * (g i - f i)) ^ 2) (fun i => (1 - t) * f i ^ 2 + t * g i ^ 2 - t * (1 - t) * (g i - f i) ^ 2)) by (intros; ring).
    rewrite Sum_minus, Sum_plus, !Sum_scal. pose proof (norm_seg T f g t Ht) as HN.
    rewrite !Rabs_right by (apply Rle_ge, norm2_pos).
    set (N := norm2 (tab T (fun i => f i + t * (g i - f i)))) in *. set (A := norm2 (tab T f)) in *. set (B := norm2 (tab T g)) in *.
    set (SA := Sum T (fun i => f i ^ 2)) in *. set (SB := Sum T (fun i => g i ^ 2)) in *. set (SD := Sum T (fun i => (g i - f i) ^ 2)) in *.
    assert (HH : a * r * N <= a * r * ((1 - t) * A + t * B)) by (apply Rmult_le_compat_l; lra).
    replace (a * (r * N + (1 - r) / 2 * ((1 - t) * SA + t * SB - t * (1 - t) * SD))) with (a * r * N + (1 - t) * (a * ((1 - r) / 2 * SA)) + t * (a * ((1 - r) / 2 * SB)) - t * (1 - t) * (a * (1 - r) / 2 * SD)) by field.
    lra.
Qed.
Lemma vstrong_grad k T f s : penT_range k -> convexT k -> vsubgrad T (penT k) (tab T f) s ->
  forall g, penT k (tab T f) + Sum T (fun t => nth t s 0 * (g t - f t)) + modulus_mt k / 2 * Sum T (fun t => (g t - f t) ^ 2) <= penT k (tab T g).
Proof.
  intros Hr Hc (Hl & m & Hm & H) g. set (B := Sum T (fun i => (g i - f i) ^ 2)). assert (HB : 0 <= B) by (apply Sum_nonneg; intros; apply pow2_ge_0).
  pose proof (modulus_mt_nonneg k Hr) as Hmu. apply (vanish _ ((m + modulus_mt k / 2) * B)); [apply Rmult_le_pos; lra|]. intros t Ht.
  specialize (H (tab T (fun i => f i + t * (g i - f i))) (tab_length _ _)). rewrite vminus_tab in H. rewrite (tab_nth_len T s 0 Hl), !dotp_tab in H.
  rewrite (Sum_ext T (fun i => nth i s 0 * (f i + t * (g i - f i) - f i)) (fun i => t * (nth i s 0 * (g i - f i)))) in H by (intros; ring).
  rewrite (Sum_ext T (fun i => (f i + t * (g i - f i) - f i) * (f i + t * (g i - f i) - f i)) (fun i => t * t * (g i - f i) ^ 2)) in H by (intros; ring).
  rewrite !Sum_scal in H. fold B in H. pose proof (penT_strong k T f g t Hr Hc ltac:(lra)) as HP. fold B in HP.
  apply Rmult_le_reg_l with t; [lra|]. set (S := Sum T (fun i => nth i s 0 * (g i - f i))) in *. set (mu := modulus_mt k) in *.
  assert (E : t * (penT k (tab T f) + S + mu / 2 * B - t * ((m + mu / 2) * B)) = t * penT k (tab T f) + t * S - m * (t * t * B) + t * (1 - t) * (mu / 2 * B)) by ring. lra.
Qed.
Lemma quad_mono n p T X Y W V : (1 <= n)%nat ->
  Sum p (fun j => Sum T (fun t => (gq n X Y (lin_mt p X W) j t - gq n X Y (lin_mt p X V) j t) * (W j t - V j t))) = Sum n (fun i => Sum T (fun t => (lin_mt p X W i t - lin_mt p X V i t) ^ 2)) / INR n.
Proof.
  intros Hn. pose proof (INR_npos n Hn) as HN. rewrite Sum_swap, (Sum_swap n T), <- Sum_div. apply Sum_ext. intros t Ht.
  unfold gq. rewrite (Sum_ext p _ (fun j => Sum n (fun i => X i j * (lin_mt p X W i t - lin_mt p X V i t) * (W j t - V j t)) / INR n)).
  + rewrite Sum_div. f_equal. rewrite Sum_swap. apply Sum_ext. intros i Hi.
    rewrite (Sum_ext p _ (fun j => (lin_mt p X W i t - lin_mt p X V i t) * (X i j * (W j t - V j t)))) by (intros; ring). rewrite Sum_scal.
    replace (Sum p (fun j => X i j * (W j t - V j t))) with (lin_mt p X W i t - lin_mt p X V i t) by (unfold lin_mt; rewrite <- Sum_minus; apply Sum_ext; intros; ring). ring.
  + intros j Hj. rewrite Sum_scal_r. rewrite (Sum_ext n (fun i => X i j * (lin_mt p X W i t - lin_mt p X V i t)) (fun i => X i j * lin_mt p X W i t - X i j * lin_mt p X V i t)) by (intros; ring). rewrite Sum_minus. field. lra.
Qed.
Lemma agree_mt k n p T X Y e1 e2 W V : (1 <= n)%nat -> penT_range k -> convexT k ->
  stationary_mt e1 (quad_loss_mt n T Y) p T X (penT k) W -> stationary_mt e2 (quad_loss_mt n T Y) p T X (penT k) V ->
  Sum n (fun i => Sum T (fun t => (lin_mt p X W i t - lin_mt p X V i t) ^ 2)) / INR n + modulus_mt k * Sum p (fun j => Sum T (fun t => (W j t - V j t) ^ 2))
    <= (e1 + e2) * Sum p (fun j => norm2 (map (fun t => W j t - V j t) (seq 0 T))).
Proof.
  intros Hn Hr Hc H1 H2. rewrite <- (quad_mono n p T X Y W V Hn). rewrite <- !Sum_scal, <- Sum_plus. apply Sum_le. intros j Hj.
  destruct (H1 j Hj) as (d & (g & Dg & (_ & s & Hs & Ed)) & Hd). destruct (H2 j Hj) as (d' & (g' & Dg' & (_ & s' & Hs' & Ed')) & Hd').
  set (G := gq n X Y (lin_mt p X W)) in *. set (G' := gq n X Y (lin_mt p X V)) in *.
  assert (Eg : forall t, (t < T)%nat -> g t = G j t) by (intros t Ht; eapply uniqueness_limite; [apply Dg; auto|apply quad_mt_deriv; auto]).
  assert (Eg' : forall t, (t < T)%nat -> g' t = G' j t) by (intros t Ht; eapply uniqueness_limite; [apply Dg'; auto|apply quad_mt_deriv; auto]).
  pose proof (proj1 Hs) as Hl. pose proof (proj1 Hs') as Hl'.
  change (map (W j) (seq 0 T)) with (tab T (W j)) in Hs. change (map (V j) (seq 0 T)) with (tab T (V j)) in Hs'.
  pose proof (vstrong_grad k T _ _ Hr Hc Hs (V j)) as Q1. pose proof (vstrong_grad k T _ _ Hr Hc Hs' (W j)) as Q2.
  change (map (fun t => - g t) (seq 0 T)) with (tab T (fun t => - g t)) in Ed. rewrite (tab_nth_len T s 0 Hl), vminus_tab in Ed.
  rewrite (tab_ext T _ (fun t => - G j t - nth t s 0)) in Ed by (intros t Ht; rewrite Eg; auto).
  change (map (fun t => - g' t) (seq 0 T)) with (tab T (fun t => - g' t)) in Ed'. rewrite (tab_nth_len T s' 0 Hl'), vminus_tab in Ed'.
  rewrite (tab_ext T _ (fun t => - G' j t - nth t s' 0)) in Ed' by (intros t Ht; rewrite Eg'; auto).
  change (map (fun t => W j t - V j t) (seq 0 T)) with (tab T (fun t => W j t - V j t)). set (N := norm2 (tab T (fun t => W j t - V j t))) in *.
  assert (HN : 0 <= N) by apply norm2_pos.
  assert (B1 : - Sum T (fun t => (- G j t - nth t s 0) * (W j t - V j t)) <= e1 * N).
  { assert (CS := cauchy_schwarz (vscale (-1) (tab T (fun t => - G j t - nth t s 0))) (tab T (fun t => W j t - V j t))).
    rewrite dotp_scale_l, norm2_scale, dotp_tab, Ed in CS. replace (Rabs (-1)) with 1 in CS by (rewrite Rabs_left; lra). fold N in CS.
    assert (d * N <= e1 * N) by (apply Rmult_le_compat_r; auto). lra. }
  assert (B2 : Sum T (fun t => (- G' j t - nth t s' 0) * (W j t - V j t)) <= e2 * N).
  { assert (CS := cauchy_schwarz (tab T (fun t => - G' j t - nth t s' 0)) (tab T (fun t => W j t - V j t))).
    rewrite dotp_tab, Ed' in CS. fold N in CS. assert (d' * N <= e2 * N) by (apply Rmult_le_compat_r; auto). lra. }
  rewrite (Sum_ext T (fun t => (V j t - W j t) ^ 2) (fun t => (W j t - V j t) ^ 2)) in Q1 by (intros; ring). set (D := Sum T (fun t => (W j t - V j t) ^ 2)) in *.
  assert (E : Sum T (fun t => (G j t - G' j t) * (W j t - V j t)) = - Sum T (fun t => (- G j t - nth t s 0) * (W j t - V j t)) + Sum T (fun t => (- G' j t - nth t s' 0) * (W j t - V j t))
     + Sum T (fun t => nth t s 0 * (V j t - W j t)) + Sum T (fun t => nth t s' 0 * (W j t - V j t))).
  { rewrite <- Sum_opp, <- !Sum_plus. apply Sum_ext. intros. ring. }
  lra.
Qed.
Lemma enet_agree_mt a r n p T X Y e1 e2 W V : (1 <= n)%nat -> 0 < a -> 0 < r < 1 -> 0 <= e1 + e2 ->
  stationary_mt e1 (quad_loss_mt n T Y) p T X (penT (MtEnetPen a r)) W -> stationary_mt e2 (quad_loss_mt n T Y) p T X (penT (MtEnetPen a r)) V ->
  Sum p (fun j => Sum T (fun t => (W j t - V j t) ^ 2)) <= INR p * ((e1 + e2) / (a * (1 - r))) ^ 2.
Proof.
  intros Hn Ha Hr He H1 H2. pose proof (agree_mt (MtEnetPen a r) n p T X Y e1 e2 W V Hn ltac:(cbn; repeat split; try lra; apply Rmult_lt_0_compat; lra) I H1 H2) as H. cbn [modulus_mt] in H.
  assert (HL : 0 <= Sum n (fun i => Sum T (fun t => (lin_mt p X W i t - lin_mt p X V i t) ^ 2)) / INR n).
  { pose proof (INR_npos n Hn). apply Rmult_le_pos; [apply Sum_nonneg; intros; apply Sum_nonneg; intros; apply pow2_ge_0|left; apply Rinv_0_lt_compat; lra]. }
  apply gap_from with (S1 := Sum p (fun j => norm2 (map (fun t => W j t - V j t) (seq 0 T)))); auto; try lra.
  - apply Rmult_lt_0_compat; lra.
  - apply pos_INR.
  - apply Sum_nonneg. intros. apply norm2_pos.
  - apply Sum_nonneg. intros. apply Sum_nonneg. intros. apply pow2_ge_0.
  - pose proof (cs_count p (fun j => norm2 (tab T (fun t => W j t - V j t)))) as C. cbv beta in C. rewrite (Sum_ext p (fun j => norm2 (tab T (fun t => W j t - V j t)) ^ 2) (fun j => Sum T (fun t => (W j t - V j t) ^ 2))) in C by (intros; apply norm2_tab).
    rewrite (Sum_ext p (fun j => Rabs (norm2 (tab T (fun t => W j t - V j t)))) (fun j => norm2 (tab T (fun t => W j t - V j t)))) in C by (intros; apply Rabs_right, Rle_ge, norm2_pos). exact C.
Qed.
Lemma fits_agree_mt srt srt' (VS : valid_sort xops srt) (VS' : valid_sort xops srt') n p T X Y k s s' fit fit' c e1 e2 : (1 <= n)%nat ->
  multi_fit srt n p T X Y k s fit -> multi_fit srt' n p T X Y k s' fit' -> l1_weight_mt k c -> 0 < c -> 0 <= e1 + e2 ->
  forall m m' W V, fit m = Ret (Ok (xm p T W)) -> fit' m' = Ret (Ok (xm p T V)) ->
  stationary_mt e1 (quad_loss_mt n T Y) p T X (penT k) W -> stationary_mt e2 (quad_loss_mt n T Y) p T X (penT k) V ->
  Sum n (fun i => Sum T (fun t => (lin_mt p X W i t - lin_mt p X V i t) ^ 2)) / INR n <= (e1 + e2) * (2 * (Sum n (fun i => Sum T (fun t => Y i t ^ 2)) / (2 * INR n)) / c).
Proof.
  intros Hn HF HF' Hw Hc He m m' W V EW EV H1 H2. assert (HS : steps_ok_mt Rle k n p X) by (destruct k; cbn in *; tauto).
  assert (Hcx : convexT k) by (clear - Hw; destruct k; cbn in *; tauto). pose proof (proj1 (multi_run srt VS n p Hn T X Y k s fit HF)) as Hr.
  destruct (loss_bound_mt srt VS n p Hn T X Y k s fit HF HS m _ EW) as (W' & E & _ & B). destruct (loss_bound_mt srt' VS' n p Hn T X Y k s' fit' HF' HS m' _ EV) as (V' & E' & _ & B').
  specialize (B c Hw). specialize (B' c Hw). pose proof (quad_mt_nonneg n T Y (lin_mt p X W') Hn). pose proof (quad_mt_nonneg n T Y (lin_mt p X V') Hn).
  set (L := Sum n (fun i => Sum T (fun t => Y i t ^ 2)) / (2 * INR n)) in *.
  pose proof (agree_mt k n p T X Y e1 e2 W V Hn Hr Hcx H1 H2) as A. pose proof (modulus_mt_nonneg k Hr) as Hmu.
  assert (0 <= modulus_mt k * Sum p (fun j => Sum T (fun t => (W j t - V j t) ^ 2))) by (apply Rmult_le_pos; auto; apply Sum_nonneg; intros; apply Sum_nonneg; intros; apply pow2_ge_0).
  apply Rle_trans with ((e1 + e2) * Sum p (fun j => norm2 (map (fun t => W j t - V j t) (seq 0 T)))); [lra|]. apply Rmult_le_compat_l; auto.
  apply Rmult_le_reg_l with c; auto. replace (c * (2 * L / c)) with (2 * L) by (field; lra).
  assert (TR : Sum p (fun j => norm2 (map (fun t => W j t - V j t) (seq 0 T))) <= Sum p (fun j => norm2 (map (W' j) (seq 0 T))) + Sum p (fun j => norm2 (map (V' j) (seq 0 T)))).
  { rewrite <- Sum_plus. apply Sum_le. intros j Hj.
    change (norm2 (tab T (fun t => W j t - V j t)) <= norm2 (tab T (W' j)) + norm2 (tab T (V' j))).
    rewrite (tab_ext T (fun t => W j t - V j t) (fun t => W' j t - V' j t)) by (intros t Ht; rewrite (xm_inj p T W W' E j t Hj Ht), (xm_inj p T V V' E' j t Hj Ht); auto).
    assert (Q := norm2_triang3 (tab T (W' j)) (tab T (fun _ => 0)) (tab T (V' j)) ltac:(rewrite !tab_length; auto) ltac:(rewrite !tab_length; auto)).
    rewrite (norm2_minus_sym (tab T (fun _ => 0))) in Q by (rewrite !tab_length; auto). rewrite !vminus_tab in Q.
    rewrite (tab_ext T (fun t => W' j t - 0) (W' j)), (tab_ext T (fun t => V' j t - 0) (V' j)) in Q by (intros; ring). lra. }
  apply Rle_trans with (c * (Sum p (fun j => norm2 (map (W' j) (seq 0 T))) + Sum p (fun j => norm2 (map (V' j) (seq 0 T))))); [apply Rmult_le_compat_l; lra|lra].
Qed.
