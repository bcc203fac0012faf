(** Fits on some of the columns. *)
From Coq Require Import List ZArith Bool Arith Reals Lra Lia Permutation FunctionalExtensionality.
From Verif Require Import Ops Arr MUtils MDatasets MDatafits MPenalties MCd MHyper MEstimators XR PBase RSum SpecPen SpecLin SpecData SpecSolve PLaws SpecOpt SpecBudget SpecOracle PFitOpt PDatafit PCert PConv PDescent PMore PSens.
Import ListNotations.
Open Scope R_scope.

Lemma Sum_kept kept p f : NoDup kept -> (forall j, In j kept -> (j < p)%nat) -> (forall j, (j < p)%nat -> ~ In j kept -> f j = 0) ->
  Sum (length kept) (fun j => f (nth j kept 0%nat)) = Sum p f.
Proof.
  intros ND LT Z. set (inb j := existsb (Nat.eqb j) kept). set (rest := filter (fun j => negb (inb j)) (seq 0 p)).
  assert (IB : forall j, inb j = true <-> In j kept).
  { intros j. unfold inb. rewrite existsb_exists. split; [intros (x & Hx & E); apply Nat.eqb_eq in E; subst; auto|intros H; exists j; split; auto; apply Nat.eqb_refl]. }
  assert (PM : Permutation (kept ++ rest) (seq 0 p)).
  { apply NoDup_Permutation; [|apply seq_NoDup|].
    - assert (forall (a b : list nat), NoDup a -> NoDup b -> (forall x, In x a -> ~ In x b) -> NoDup (a ++ b)) as NA.
      { induction a as [|x a IH]; intros b Ha Hb Hd; [exact Hb|]. inversion Ha; subst. cbn [app]. constructor; [rewrite in_app_iff; intros [H|H]; [auto|apply (Hd x); auto; left; auto]|apply IH; auto; intros; apply Hd; right; auto]. }
      apply NA; [exact ND|apply NoDup_filter, seq_NoDup|]. intros x Hx Hr. apply filter_In in Hr as [_ Hr]. apply negb_true_iff in Hr. apply IB in Hx. congruence.
    - intros x. rewrite in_app_iff, in_seq. unfold rest. rewrite filter_In, in_seq, negb_true_iff. split; [intros [H|[H _]]; [specialize (LT x H); lia|lia]|].
      intros H. destruct (inb x) eqn:E; [left; apply IB; exact E|right; split; [lia|reflexivity]]. }
  rewrite <- (Sum_perm p (kept ++ rest) f PM), map_app.
  rewrite Rsum_app.
  assert (RZ : Rsum (map f rest) = 0).
  { assert (Q : forall j, In j rest -> f j = 0). { intros j Hj. unfold rest in Hj. apply filter_In in Hj as [H1 H2]. apply in_seq in H1. apply negb_true_iff in H2. apply Z; [lia|]. intros H. apply IB in H. congruence. }
    clear - Q. induction rest as [|x l IH]; [reflexivity|]. cbn [map]. change (f x + Rsum (map f l) = 0). rewrite Q by (left; auto). rewrite IH by (intros; apply Q; right; auto). ring. }
  rewrite RZ, Rplus_0_r. unfold Sum, tab. f_equal. rewrite <- (map_map (fun j => nth j kept 0%nat) f). f_equal.
  clear. induction kept as [|x l IH]; [reflexivity|]. cbn [length]. rewrite <- cons_seq, <- seq_shift. cbn [map nth]. rewrite map_map. f_equal. exact IH.
Qed.

Lemma set1_at w j s i : set1 w j s i = if Nat.eqb i j then s else w i.
Proof. reflexivity. Qed.
Section Kept.
Variables (n p : nat) (Hn : (1 <= n)%nat) (kept : list nat) (ND : NoDup kept) (LT : forall j, In j kept -> (j < p)%nat) (X : rmat) (y : nat -> R) (l : single_loss) (k : single_pen).
Let p' := length kept.
Let X' : rmat := fun i j => X i (nth j kept 0%nat).
Lemma lin_kept u v : (forall j, (j < p')%nat -> v j = u (nth j kept 0%nat)) -> (forall j, (j < p)%nat -> ~ In j kept -> u j = 0) -> lin p' X' v = lin p X u.
Proof.
  intros E Z. apply functional_extensionality. intros i. unfold lin. rewrite <- (Sum_kept kept p (fun j => X i j * u j)) by (auto; intros; rewrite Z; auto; ring).
  apply Sum_ext. intros j Hj. unfold X'. rewrite E; auto.
Qed.
Lemma objective_kept u v : pen1_range k -> (forall j, (j < p')%nat -> v j = u (nth j kept 0%nat)) -> (forall j, (j < p)%nat -> ~ In j kept -> u j = 0) ->
  objective (loss1 l n y) p' X' (pen1 k) v = objective (loss1 l n y) p X (pen1 k) u.
Proof.
  intros Hr E Z. unfold objective. rewrite (lin_kept u v E Z). f_equal. rewrite <- (Sum_kept kept p (fun j => pen1 k (u j))) by (auto; intros; rewrite Z by auto; apply pen1_at_0; auto).
  apply Sum_ext. intros j Hj. rewrite E; auto.
Qed.
(** the kept coefficients of a stationary point solve the smaller problem *)
Lemma stationary_kept e w : (forall j, (j < p)%nat -> ~ In j kept -> w j = 0) ->
  stationary e (loss1 l n y) p X (pen1 k) w -> stationary e (loss1 l n y) p' X' (pen1 k) (fun j => w (nth j kept 0%nat)).
Proof.
  intros Z H j Hj. assert (IJ : In (nth j kept 0%nat) kept) by (apply nth_In; auto). destruct (H _ (LT _ IJ)) as (d & (g & Dg & Hd) & Hle).
  exists d. split; auto. exists g. split; auto.
  replace (fun s => loss1 l n y (lin p' X' (set1 (fun j0 => w (nth j0 kept 0%nat)) j s))) with (fun s => loss1 l n y (lin p X (set1 w (nth j kept 0%nat) s))); auto.
  apply functional_extensionality. intros s. f_equal. symmetry. apply lin_kept.
  - intros i Hi. rewrite !set1_at. destruct (Nat.eqb_spec i j) as [->|N]; [rewrite Nat.eqb_refl; auto|].
    destruct (Nat.eqb_spec (nth i kept 0%nat) (nth j kept 0%nat)) as [E|]; auto. exfalso. apply N. apply (proj1 (NoDup_nth kept 0%nat) ND i j); auto.
  - intros i Hi Hni. rewrite set1_at. destruct (Nat.eqb_spec i (nth j kept 0%nat)) as [->|]; [contradiction|auto].
Qed.
Lemma extension (v : nat -> R) : exists u, (forall j, (j < p')%nat -> v j = u (nth j kept 0%nat)) /\ (forall j, (j < p)%nat -> ~ In j kept -> u j = 0).
Proof.
  exists (fun i => Sum p' (fun j => if Nat.eqb (nth j kept 0%nat) i then v j else 0)). split.
  - intros j Hj. rewrite (Sum_single p' _ j); auto; [rewrite Nat.eqb_refl; auto|]. intros i Hi Nij. destruct (Nat.eqb_spec (nth i kept 0%nat) (nth j kept 0%nat)) as [E|]; auto.
    exfalso. apply Nij. apply (proj1 (NoDup_nth kept 0%nat) ND i j); auto.
  - intros j Hj N. apply Sum_zero. intros i Hi. destruct (Nat.eqb_spec (nth i kept 0%nat) j) as [E|]; auto. exfalso. apply N. rewrite <- E. apply nth_In; auto.
Qed.
(** *** fits *)
Context (srt : list xr -> list nat) (VS : valid_sort xops srt).
Variables (c : R) (s : solver xr) (fit : nat -> res (result (list xr) (estimator_error xr))) (t : R).
Hypotheses (Hy : targets_ok l n y) (Hw : l1_weight k c).
Section One.
Hypotheses (HF : single_fit srt n p X y l k s fit) (HA : accepted fit) (Et : s_tolerance s = Fin t) (Ht : 0 < t)
  (Hq : (1 <= s_ws_start_size s)%nat /\ (1 <= s_max_epochs s)%nat /\ calm_schedule (s_use_acceleration s) (s_K s) (s_max_epochs s) /\
     accel_safe (s_use_acceleration s) (s_K s) (Nat.min (s_ws_start_size s) p) (s_max_epochs s)).
Lemma one_fit : exists N w, (forall m, (N <= m)%nat -> fit m = Ret (Ok (xv p w))) /\ stationary t (loss1 l n y) p X (pen1 k) w /\ pen1_range k /\ convex1 k.
Proof.
  destruct Hq as (A1 & A2 & A3 & A4). destruct (conv_of n p X l k c Hw) as [C1 C2].
  destruct (c27_single srt VS n p Hn X y l k s fit HF Hy (C2 Rlt) t HA Et Ht A1 A2 A3 A4) as (N & w & Hst & Hall).
  exists N, w. split; auto. split; auto. split; auto. destruct (inv1 srt VS n p Hn X y l k s fit HF Hy (C2 Rle) N _ (Hall N (le_n N))) as (H & _); auto.
Qed.
(** more columns: no model of the kept columns does noticeably better *)
Lemma c104_added : exists N w, (forall m, (N <= m)%nat -> fit m = Ret (Ok (xv p w))) /\
  forall v, objective (loss1 l n y) p X (pen1 k) w <= objective (loss1 l n y) p' X' (pen1 k) v +
    t * (Sum p' (fun j => Rabs (w (nth j kept 0%nat) - v j)) + Sum p (fun j => if in_dec Nat.eq_dec j kept then 0 else Rabs (w j))).
Proof.
  destruct one_fit as (N & w & Hall & Hst & Hr & Hc). exists N, w. split; auto. intros v.
  destruct (extension v) as (u & Eu & Zu).
  pose proof (c28_single l k n p X y t w u Hn Hr Hc Hst) as Q. rewrite (objective_kept u v Hr Eu Zu).
  replace (Sum p' (fun j => Rabs (w (nth j kept 0%nat) - v j)) + Sum p (fun j => if in_dec Nat.eq_dec j kept then 0 else Rabs (w j))) with (Sum p (fun j => Rabs (w j - u j))); auto.
  rewrite (Sum_ext p' _ (fun j => (fun i => if in_dec Nat.eq_dec i kept then Rabs (w i - u i) else 0) (nth j kept 0%nat))).
  2:{ intros j Hj. cbv beta. destruct (in_dec _ _ _) as [_|N0]; [rewrite Eu; auto|]. exfalso. apply N0. apply nth_In; auto. }
  assert (SK : Sum p' (fun j => (fun i => if in_dec Nat.eq_dec i kept then Rabs (w i - u i) else 0) (nth j kept 0%nat)) = Sum p (fun i => if in_dec Nat.eq_dec i kept then Rabs (w i - u i) else 0))
    by (apply (Sum_kept kept p (fun i => if in_dec Nat.eq_dec i kept then Rabs (w i - u i) else 0)); auto; intros j _ N0; destruct (in_dec _ _ _); [contradiction|auto]).
  cbv beta in SK |- *. rewrite SK.
  rewrite <- Sum_plus. apply Sum_ext. intros j Hj. destruct (in_dec _ _ _); [lra|]. rewrite Zu by auto. rewrite Rminus_0_r. lra.
Qed.
End One.
End Kept.
(** models with the same support *)
Lemma dropped_core n p (Hn : (1 <= n)%nat) kept (ND : NoDup kept) (LT : forall j, In j kept -> (j < p)%nat) X y l k c t t' w v :
  let p' := length kept in let X' := fun i j => X i (nth j kept 0%nat) in
  pen1_range k -> convex1 k -> l1_weight k c -> 0 <= t + t' -> stationary t (loss1 l n y) p X (pen1 k) w -> stationary t' (loss1 l n y) p' X' (pen1 k) v ->
  (forall j, (j < p)%nat -> ~ In j kept -> w j = 0) ->
  let D := Sum p' (fun j => Rabs (w (nth j kept 0%nat) - v j)) in
  (objective (loss1 l n y) p X (pen1 k) w <= objective (loss1 l n y) p' X' (pen1 k) v + t * D /\
   objective (loss1 l n y) p' X' (pen1 k) v <= objective (loss1 l n y) p X (pen1 k) w + t' * D) /\
  (0 < ridge k -> ridge k * sqrt (Sum p' (fun j => (w (nth j kept 0%nat) - v j) ^ 2)) <= sqrt (INR p') * (t + t')) /\
  (l = Squared -> Sum n (fun i => (lin p X w i - lin p' X' v i) ^ 2) / INR n <= (t + t') * D).
Proof.
  intros p' X' Hr Hc Hw Htt Hst Hst' Z D.
  pose proof (stationary_kept n p kept ND LT X y l k t w Z Hst) as Hk. fold p' X' in Hk. set (wk := fun j => w (nth j kept 0%nat)) in *.
  assert (EO : objective (loss1 l n y) p X (pen1 k) w = objective (loss1 l n y) p' X' (pen1 k) wk) by (symmetry; apply (objective_kept n p kept ND LT X y l k w wk); auto).
  assert (ED : Sum p' (fun j => Rabs (v j - wk j)) = D) by (apply Sum_ext; intros; apply Rabs_minus_sym).
  split; [|split].
  - rewrite EO. split; [exact (c28_single l k n p' X' y t wk v Hn Hr Hc Hk)|]. rewrite <- ED. exact (c28_single l k n p' X' y t' v wk Hn Hr Hc Hst').
  - intros Hg. pose proof (c100_coefficients l n p' Hn X' y k k c c t t' wk v Hr Hr Hc Hc Hw Hw Hk Hst' Hg Htt) as Q.
    rewrite !Rminus_eq_0, Rabs_R0, Rmult_0_l, !Rplus_0_r in Q. exact Q.
  - intros ->. pose proof (c100_predictions n p' X' y k k c c t t' wk v Hn Hr Hr Hc Hc Hw Hw Hk Hst') as Q. unfold msp in Q.
    rewrite !Rminus_eq_0, Rabs_R0, !Rmult_0_l, !Rplus_0_r in Q. rewrite (Sum_ext n _ (fun i => (lin p X w i - lin p' X' v i) ^ 2)) in Q; [exact Q|].
    intros i Hi. rewrite lin_minus. replace (lin p X w) with (lin p' X' wk); auto. apply (lin_kept p kept ND LT X w wk); auto.
Qed.
(** unselected columns may be dropped *)
Section Drop.
Variables (n p : nat) (Hn : (1 <= n)%nat) (kept : list nat) (ND : NoDup kept) (LT : forall j, In j kept -> (j < p)%nat) (X : rmat) (y : nat -> R) (l : single_loss) (k : single_pen).
Let p' := length kept.
Let X' : rmat := fun i j => X i (nth j kept 0%nat).
Context (srt srt' : list xr -> list nat) (VS : valid_sort xops srt) (VS' : valid_sort xops srt').
Variables (c : R) (s s' : solver xr) (fit fit' : nat -> res (result (list xr) (estimator_error xr))) (t t' : R).
Hypotheses (HF : single_fit srt n p X y l k s fit) (HF' : single_fit srt' n p' X' y l k s' fit') (Hy : targets_ok l n y) (Hw : l1_weight k c) (HA : accepted fit) (HA' : accepted fit')
  (Et : s_tolerance s = Fin t) (Et' : s_tolerance s' = Fin t') (Ht : 0 < t) (Ht' : 0 < t')
  (Hq : forall q d, In (q, d) [(s, p); (s', p')] -> (1 <= s_ws_start_size q)%nat /\ (1 <= s_max_epochs q)%nat /\ calm_schedule (s_use_acceleration q) (s_K q) (s_max_epochs q) /\
     accel_safe (s_use_acceleration q) (s_K q) (Nat.min (s_ws_start_size q) d) (s_max_epochs q)).
Lemma c104_dropped : exists N w v, (forall m, (N <= m)%nat -> fit m = Ret (Ok (xv p w)) /\ fit' m = Ret (Ok (xv p' v))) /\
  ((forall j, (j < p)%nat -> ~ In j kept -> w j = 0) ->
   let D := Sum p' (fun j => Rabs (w (nth j kept 0%nat) - v j)) in
   (objective (loss1 l n y) p X (pen1 k) w <= objective (loss1 l n y) p' X' (pen1 k) v + t * D /\
    objective (loss1 l n y) p' X' (pen1 k) v <= objective (loss1 l n y) p X (pen1 k) w + t' * D) /\
   (0 < ridge k -> ridge k * sqrt (Sum p' (fun j => (w (nth j kept 0%nat) - v j) ^ 2)) <= sqrt (INR p') * (t + t')) /\
   (l = Squared -> Sum n (fun i => (lin p X w i - lin p' X' v i) ^ 2) / INR n <= (t + t') * D)).
Proof.
  destruct (one_fit n p Hn X y l k srt VS c s fit t Hy Hw HF HA Et Ht (Hq s p (or_introl eq_refl))) as (N & w & Hall & Hst & Hr & Hc).
  destruct (one_fit n p' Hn X' y l k srt' VS' c s' fit' t' Hy Hw HF' HA' Et' Ht' (Hq s' p' (or_intror (or_introl eq_refl)))) as (N' & v & Hall' & Hst' & _ & _).
  exists (Nat.max N N'), w, v. split; [intros m Hm; split; [apply Hall|apply Hall']; lia|]. intros Z.
  apply (dropped_core n p Hn kept ND LT X y l k c t t' w v); auto. lra.
Qed.
End Drop.
