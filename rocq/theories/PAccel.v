(** Outcome of an acceleration step. *)
From Coq Require Import List ZArith Bool Arith Reals Lra Lia.
From Verif Require Import Ops Arr XR VecR SpecPen MDatasets MDatafits MDatafitsMT MPenalties MBlockPenalties MCd MBcd PBase RSum SpecLin SpecData SpecDatafit PLin PData PDatafit PCalc PDataProps PAnderson PStruct SpecSolve SpecOpt SpecAccel
  PNoPanic PRef PRefCD PRefBCD PRefPen PSim PFit PDescent PTheory PFitOpt.
Import ListNotations.
Open Scope R_scope.

Lemma raccel_outcome P W Z H ws e K V U H' : NoDup ws -> (forall j, In j ws -> (j < pp P)%nat) -> raccel P W Z H ws e K = Ret (V, U, H') ->
  (V = W /\ U = Z) \/
  (e mod S K = K /\ fitted P (V, U) /\ obj P (V, U) < obj P (W, Z) /\ (forall j t, ~ In j ws -> V j t = 0) /\
   exists c, Sum K c = 1 /\ forall a t, (a < length ws)%nat -> (t < pT P)%nat -> V (nth a ws 0%nat) t = Sum K (fun k => c k * H k (a * pT P + t)%nat)).
Proof.
  intros ND Hin E. assert (E2 := E). apply accel_cases in E2; auto. destruct E2 as (-> & [Es|(Em & Ho & Hf & pt & Ept & Es)]); [left; injection Es; auto|].
  right. split; auto. split; auto. split; auto. injection Es as -> ->. split; [intros; apply scatter_off; auto|].
  set (H' := rstore P H (e mod S K) W ws) in *. set (w := (length ws * pT P)%nat) in *.
  destruct (Nat.eq_dec K 0) as [->|HK0]; [rewrite (anderson_k0 xops) in Ept by apply xm_shaped; discriminate|].
  destruct (Nat.lt_ge_cases w K) as [HK|HK]; [rewrite (anderson_oob xops) in Ept by (auto; apply xm_shaped); discriminate|].
  destruct (anderson_point_res K w H') as [Ea|(pt' & Ea & c & Hc & Ex)]; [lia|congruence|]. rewrite Ea in Ept. injection Ept as ->.
  exists c. split; auto. intros a t Ha Ht. unfold rscatter. rewrite pos_nth by auto. rewrite Ex. unfold xv. rewrite nth_tab by (unfold w; nia). cbn [toR].
  apply Sum_ext. intros k Hk. unfold H', rstore. destruct (Nat.eqb_spec k (e mod S K)); [lia|reflexivity].
Qed.
Lemma raccel_store P W Z H ws e K V U H' : NoDup ws -> (forall j, In j ws -> (j < pp P)%nat) -> raccel P W Z H ws e K = Ret (V, U, H') -> H' = rstore P H (e mod S K) W ws.
Proof. intros ND Hin E. apply accel_cases in E; auto. tauto. Qed.
Lemma store_entry P H r W ws k a t : (t < pT P)%nat -> (a < length ws)%nat -> rstore P H r W ws k (a * pT P + t)%nat = if (k =? r)%nat then W (nth a ws 0%nat) t else H k (a * pT P + t)%nat.
Proof.
  intros Ht Ha. unfold rstore. destruct (k =? r)%nat; auto.
  revert a Ha. induction ws as [|j ws IH]; intros a Ha; [simpl in Ha; lia|]. cbn [map concat]. destruct a as [|a].
  - rewrite app_nth1 by (unfold row; rewrite tab_length; lia). unfold row. rewrite Nat.mul_0_l, Nat.add_0_l. rewrite nth_tab by auto. reflexivity.
  - rewrite app_nth2 by (unfold row; rewrite tab_length; lia). unfold row at 1. rewrite tab_length. replace (S a * pT P + t - pT P)%nat with (a * pT P + t)%nat by lia. cbn [nth]. apply IH. simpl in Ha. lia.
Qed.

Section A.
Context (n p : nat) (Hn : (1 <= n)%nat).
Definition go_accel (PB : problem) (H : rmat) (w z : nat -> R) ws e K := bind (raccel PB (fun j _ => w j) (fun i _ => z i) H ws e K) (fun st => Ret (vst3 n p K (length ws) st)).
Lemma single_accel_run X y l k f H w z ws e K v : single_accel n p X y l k f -> NoDup ws -> (forall j, In j ws -> (j < p)%nat) ->
  f (xm (S K) (length ws) H) (xv p w) (xv n z) ws e K v = go_accel (prob1 l k n p X y) H w z ws e K.
Proof.
  intros HF ND Hin. change (xv p w) with (vW p (fun j _ => w j)). change (xv n z) with (vZ n (fun i _ => z i)). unfold go_accel.
  inversion HF as [X' y' k' d0 d t Ht Hr E0|E c y' k' d0 d t HC Ht Hr E0|X' y' k' d0 d t Ht Hr E0|E c y' k' d0 d t HC Ht Hr E0]; subst; clear HF.
  - destruct (quad_dense_ok n p X Hn t y d0 Ht) as (d' & E1 & HF). rewrite E1 in E0. injection E0 as <-.
    destruct k as [a|a r|a g]; cbn [pen1_range accel_call prob1 prox1 pen1 dist1] in *.
    + apply (accel_ref _ _ _ n p (Dataset (xm n p X) t) (L1 (Fin a)) d' X _ _ _ _ _ _ _ (dense_ok n p X) HF (l1_pen_ok a) (target_n n y t Ht)); auto.
    + apply (accel_ref _ _ _ n p (Dataset (xm n p X) t) _ d' X _ _ _ _ _ _ _ (dense_ok n p X) HF (l1l2_pen_ok a r (proj1 Hr) (proj2 Hr)) (target_n n y t Ht)); auto.
    + apply (accel_ref _ _ _ n p (Dataset (xm n p X) t) _ d' X _ _ _ _ _ _ _ (dense_ok n p X) HF (mcp_pen_ok a g (proj2 Hr)) (target_n n y t Ht)); auto.
  - destruct (quad_sparse_ok n p E c Hn HC t y d0 Ht) as (d' & E1 & HF). rewrite E1 in E0. injection E0 as <-.
    destruct k as [a|a r|a g]; cbn [pen1_range accel_call prob1 prox1 pen1 dist1] in *.
    + apply (accel_ref _ _ _ n p (Dataset c t) (L1 (Fin a)) d' (entry E) _ _ _ _ _ _ _ (sparse_ok n p E c HC) HF (l1_pen_ok a) (target_n n y t Ht)); auto.
    + apply (accel_ref _ _ _ n p (Dataset c t) _ d' (entry E) _ _ _ _ _ _ _ (sparse_ok n p E c HC) HF (l1l2_pen_ok a r (proj1 Hr) (proj2 Hr)) (target_n n y t Ht)); auto.
    + apply (accel_ref _ _ _ n p (Dataset c t) _ d' (entry E) _ _ _ _ _ _ _ (sparse_ok n p E c HC) HF (mcp_pen_ok a g (proj2 Hr)) (target_n n y t Ht)); auto.
  - destruct (log_dense_ok n p X t y d0 Hn Ht) as (d' & E1 & HF). rewrite E1 in E0. injection E0 as <-.
    destruct k as [a|a r|a g]; cbn [pen1_range accel_call prob1 prox1 pen1 dist1] in *.
    + apply (accel_ref _ _ _ n p (Dataset (xm n p X) t) (L1 (Fin a)) d' X _ _ _ _ _ _ _ (dense_ok n p X) HF (l1_pen_ok a) (target_n n y t Ht)); auto.
    + apply (accel_ref _ _ _ n p (Dataset (xm n p X) t) _ d' X _ _ _ _ _ _ _ (dense_ok n p X) HF (l1l2_pen_ok a r (proj1 Hr) (proj2 Hr)) (target_n n y t Ht)); auto.
    + apply (accel_ref _ _ _ n p (Dataset (xm n p X) t) _ d' X _ _ _ _ _ _ _ (dense_ok n p X) HF (mcp_pen_ok a g (proj2 Hr)) (target_n n y t Ht)); auto.
  - destruct (log_sparse_ok n p E c t y d0 Hn HC Ht) as (d' & E1 & HF). rewrite E1 in E0. injection E0 as <-.
    destruct k as [a|a r|a g]; cbn [pen1_range accel_call prob1 prox1 pen1 dist1] in *.
    + apply (accel_ref _ _ _ n p (Dataset c t) (L1 (Fin a)) d' (entry E) _ _ _ _ _ _ _ (sparse_ok n p E c HC) HF (l1_pen_ok a) (target_n n y t Ht)); auto.
    + apply (accel_ref _ _ _ n p (Dataset c t) _ d' (entry E) _ _ _ _ _ _ _ (sparse_ok n p E c HC) HF (l1l2_pen_ok a r (proj1 Hr) (proj2 Hr)) (target_n n y t Ht)); auto.
    + apply (accel_ref _ _ _ n p (Dataset c t) _ d' (entry E) _ _ _ _ _ _ _ (sparse_ok n p E c HC) HF (mcp_pen_ok a g (proj2 Hr)) (target_n n y t Ht)); auto.
Qed.
Lemma prob1_robj X y l k W Z : obj (prob1 l k n p X y) (W, Z) = loss1 l n y (fun i => Z i 0%nat) + Sum p (fun j => pen1 k (W j 0%nat)).
Proof.
  unfold obj, robj. cbn [fst snd]. rewrite prob1_p. f_equal.
  - destruct l; cbn [prob1 quadP logP single_problem pf loss1]; [rewrite quad_single; reflexivity|reflexivity].
  - apply Sum_ext. intros j Hj. rewrite prob1_pv, prob1_row. reflexivity.
Qed.
Lemma c30_single X y l k f H w z ws e K v w' z' H' : single_accel n p X y l k f -> NoDup ws -> (forall j, In j ws -> (j < p)%nat) ->
  f (xm (S K) (length ws) H) (xv p w) (xv n z) ws e K v = Ret (w', z', H') ->
  H' = xm (S K) (length ws) (fun k a => if (k =? e mod S K)%nat then w (nth a ws 0%nat) else H k a) /\
  ((w' = xv p w /\ z' = xv n z) \/
   exists u, w' = xv p u /\ z' = xv n (lin p X u) /\ (forall j, ~ In j ws -> u j = 0) /\
     loss1 l n y (lin p X u) + Sum p (fun j => pen1 k (u j)) < loss1 l n y z + Sum p (fun j => pen1 k (w j)) /\
     exists c, Sum K c = 1 /\ forall a, (a < length ws)%nat -> u (nth a ws 0%nat) = Sum K (fun i => c i * H i a)).
Proof.
  intros HF ND Hin E. rewrite (single_accel_run _ _ _ _ _ _ _ _ _ _ _ _ HF ND Hin) in E. unfold go_accel in E.
  destruct (raccel _ _ _ _ _ _ _) as [[[V U] G]|] eqn:Er; cbn [bind] in E; [|discriminate]. unfold vst3 in E. cbn [fst snd] in E. injection E as <- <- <-.
  assert (Hin' : forall j, In j ws -> (j < pp (prob1 l k n p X y))%nat) by (rewrite prob1_p; auto). split.
  - rewrite (raccel_store _ _ _ _ _ _ _ _ _ _ ND Hin' Er). apply xm_ext. intros i a Hi Ha.
    assert (Q := store_entry (prob1 l k n p X y) H (e mod S K) (fun j _ => w j) ws i a 0). rewrite prob1_T, Nat.mul_1_r, Nat.add_0_r in Q. apply Q; lia.
  - destruct (raccel_outcome _ _ _ _ _ _ _ _ _ _ ND Hin' Er) as [[-> ->]|(_ & Hf & Ho & Hoff & c & Hc & Hpt)]; [left; auto|right].
    exists (fun j => V j 0%nat). split; [reflexivity|]. unfold fitted in Hf. rewrite prob1_n, prob1_T, prob1_p, prob1_X in Hf. cbn [fst snd] in Hf.
    assert (EU : forall i, (i < n)%nat -> U i 0%nat = lin p X (fun j => V j 0%nat) i) by (intros i Hi; apply (Hf i 0%nat); auto).
    split; [unfold vZ; apply xv_ext; auto|]. split; [intros; apply Hoff; auto|]. split.
    + rewrite !prob1_robj in Ho. replace (loss1 l n y (lin p X (fun j => V j 0%nat))) with (loss1 l n y (fun i => U i 0%nat)); auto.
      destruct l; cbn [loss1]; unfold quad_loss, logistic_loss; f_equal; apply Sum_ext; intros i Hi; rewrite EU; auto.
    + exists c. split; auto. intros a Ha. rewrite prob1_T in Hpt. rewrite Hpt by auto. rewrite Nat.mul_1_r, Nat.add_0_r. reflexivity.
Qed.
Definition go_accel_mt (PB : problem) T (H W Z : rmat) ws e K := bind (raccel PB W Z H ws e K) (fun st => Ret (mst3 n p T K (length ws * T) st)).
Lemma multi_accel_run T X Y k f H W Z ws e K v : multi_accel n p T X Y k f -> NoDup ws -> (forall j, In j ws -> (j < p)%nat) ->
  f (xm (S K) (length ws * T) H) (xm p T W) (xm n T Z) ws e K v = go_accel_mt (probT k n p T X Y) T H W Z ws e K.
Proof.
  intros HF ND Hin. unfold go_accel_mt.
  inversion HF as [X' Y' k' d0 d t Ht Hr E0|E c Y' k' d0 d t HC Ht Hr E0]; subst; clear HF; destruct (target_mt_n n T Y t Ht) as (H1 & H2 & _).
  - destruct (qmt_dense_ok n p T X t Y d0 Hn Ht) as (d' & E1 & HF). rewrite E1 in E0. injection E0 as <-.
    destruct k as [a|a r|a g]; cbn [penT_range accel_call_mt] in *.
    + apply (baccel_ref _ _ _ n p T (Dataset (xm n p X) t) _ d' X _ _ _ _ _ _ _ (dense_ok n p X) HF (l21_pen_ok T a Hr) H1 H2); auto.
    + destruct Hr as (Ha & Hr & Har). apply (baccel_ref _ _ _ n p T (Dataset (xm n p X) t) _ d' X _ _ _ _ _ _ _ (dense_ok n p X) HF (bl1l2_pen_ok T a r Ha Hr Har) H1 H2); auto.
    + destruct Hr as (Ha & Hg). apply (baccel_ref _ _ _ n p T (Dataset (xm n p X) t) _ d' X _ _ _ _ _ _ _ (dense_ok n p X) HF (bmcp_pen_ok T a g Ha Hg) H1 H2); auto.
  - destruct (qmt_sparse_ok n p T E c t Y d0 Hn HC Ht) as (d' & E1 & HF). rewrite E1 in E0. injection E0 as <-.
    destruct k as [a|a r|a g]; cbn [penT_range accel_call_mt] in *.
    + apply (baccel_ref _ _ _ n p T (Dataset c t) _ d' (entry E) _ _ _ _ _ _ _ (sparse_ok n p E c HC) HF (l21_pen_ok T a Hr) H1 H2); auto.
    + destruct Hr as (Ha & Hr & Har). apply (baccel_ref _ _ _ n p T (Dataset c t) _ d' (entry E) _ _ _ _ _ _ _ (sparse_ok n p E c HC) HF (bl1l2_pen_ok T a r Ha Hr Har) H1 H2); auto.
    + destruct Hr as (Ha & Hg). apply (baccel_ref _ _ _ n p T (Dataset c t) _ d' (entry E) _ _ _ _ _ _ _ (sparse_ok n p E c HC) HF (bmcp_pen_ok T a g Ha Hg) H1 H2); auto.
Qed.
Lemma c30_multi T X Y k f H W Z ws e K v W' Z' H' : multi_accel n p T X Y k f -> NoDup ws -> (forall j, In j ws -> (j < p)%nat) ->
  f (xm (S K) (length ws * T) H) (xm p T W) (xm n T Z) ws e K v = Ret (W', Z', H') ->
  (W' = xm p T W /\ Z' = xm n T Z) \/
   exists U, W' = xm p T U /\ Z' = xm n T (lin_mt p X U) /\ (forall j t, ~ In j ws -> U j t = 0) /\
     quad_loss_mt n T Y (lin_mt p X U) + Sum p (fun j => penT k (map (U j) (seq 0 T))) < quad_loss_mt n T Y Z + Sum p (fun j => penT k (map (W j) (seq 0 T))) /\
     exists c, Sum K c = 1 /\ forall a t, (a < length ws)%nat -> (t < T)%nat -> U (nth a ws 0%nat) t = Sum K (fun i => c i * H i (a * T + t)%nat).
Proof.
  intros HF ND Hin E. rewrite (multi_accel_run _ _ _ _ _ _ _ _ _ _ _ _ HF ND Hin) in E. unfold go_accel_mt in E.
  destruct (raccel _ _ _ _ _ _ _) as [[[V U] G]|] eqn:Er; cbn [bind] in E; [|discriminate]. unfold mst3 in E. cbn [fst snd] in E. injection E as <- <- <-.
  destruct (raccel_outcome (probT k n p T X Y) _ _ _ _ _ _ _ _ _ ND Hin Er) as [[-> ->]|(_ & Hf & Ho & Hoff & c & Hc & Hpt)]; [left; auto|right].
  exists V. split; [reflexivity|]. assert (EU : forall i t, (i < n)%nat -> (t < T)%nat -> U i t = lin_mt p X V i t) by (intros; apply Hf; auto).
  split; [apply xm_ext; auto|]. split; [auto|]. split.
  - unfold obj, robj in Ho. cbn [fst snd probT mtP pp pf ppv] in Ho.
    replace (quad_loss_mt n T Y (lin_mt p X V)) with (quad_loss_mt n T Y U); [exact Ho|].
    unfold quad_loss_mt. f_equal. apply Sum_ext; intros i Hi. apply Sum_ext. intros t Ht. rewrite EU; auto.
  - exists c. split; auto.
Qed.
End A.
