(** Two reference runs whose objectives differ by a constant hold the same coefficients throughout. *)
From Coq Require Import List ZArith Bool Arith Reals Lra Lia.
From Verif Require Import Ops Arr XR SpecPen VecR MUtils MCd PBase RSum SpecLin SpecData PLin PNoPanic PLaws SpecSolve PRef PRefCD PRefPen PSim PDescent.
Import ListNotations.
Open Scope R_scope.

Section Twin.
Variables (P1 P2 : problem) (srt : list xr -> list nat) (VS : valid_sort xops srt).
Local Notation p := (pp P1). Local Notation T := (pT P1).
Hypotheses (Ep : pp P2 = p) (ET : pT P2 = T).
Definition eqW (W W' : rmat) : Prop := forall j t, (j < p)%nat -> (t < T)%nat -> W' j t = W j t.
Definition pair (a b : rmat * rmat) : Prop := eqW (fst a) (fst b) /\ fitted P1 a /\ fitted P2 b.
Definition twin (a b : rmat * rmat) : Prop := pair a b /\ dead_zero P1 (fst a).
Record twins : Prop := {
  tw_step : forall a b j, twin a b -> (j < p)%nat -> eqW (fst (rstep P1 a j)) (fst (rstep P2 b j));
  tw_dist : forall a b j, pair a b -> (j < p)%nat -> rdist P2 (fst b) (snd b) j = rdist P1 (fst a) (snd a) j;
  tw_obj : exists c, forall a b, pair a b -> robj P2 (fst b) (snd b) = robj P1 (fst a) (snd a) + c
}.
Hypothesis (TW : twins).

Lemma trow W W' j : eqW W W' -> (j < p)%nat -> row P2 W' j = row P1 W j.
Proof. intros H Hj. unfold row. rewrite ET. apply tab_ext. intros. apply H; auto. Qed.
Lemma t_step a b j : twin a b -> (j < p)%nat -> twin (rstep P1 a j) (rstep P2 b j).
Proof.
  intros H Hj. pose proof (tw_step TW a b j H Hj) as E. destruct H as ((EW & F1 & F2) & D). split; [split; [exact E|split]|].
  - apply step_fitted; auto.
  - apply step_fitted; auto. rewrite Ep. auto.
  - intros i t Hi Ht HL. destruct (Nat.eq_dec i j) as [->|N]; [rewrite step_dead by auto|rewrite step_other by auto]; apply D; auto.
Qed.
Lemma t_steps ws : (forall j, In j ws -> (j < p)%nat) -> forall a b, twin a b -> twin (fold_left (rstep P1) ws a) (fold_left (rstep P2) ws b).
Proof.
  induction ws as [|j ws IH]; intros Hin a b H; simpl; auto. apply IH; [intros; apply Hin; right; auto|]. apply t_step; auto. apply Hin; left; auto.
Qed.
Lemma t_kmax W W' Z Z' ws : pair (W, Z) (W', Z') -> (forall j, In j ws -> (j < p)%nat) -> rkmax P2 W' Z' ws = rkmax P1 W Z ws.
Proof. intros HP Hin. unfold rkmax. f_equal. apply map_ext_in. intros j Hj. f_equal. apply (tw_dist TW (W, Z) (W', Z')); auto. Qed.
Lemma t_sel W W' Z Z' ws0 : pair (W, Z) (W', Z') -> rsel P2 srt W' Z' ws0 = rsel P1 srt W Z ws0.
Proof.
  intros HP. unfold rsel. rewrite Ep. apply select_ext.
  - intros j Hj. unfold rnz. rewrite (trow W W'); auto. apply HP.
  - intros j Hj. rewrite !nth_tab by auto. f_equal. apply (tw_dist TW (W, Z) (W', Z')); auto.
Qed.
Definition eqH (w K : nat) (H H' : rmat) : Prop := forall a c, (a <= K)%nat -> (c < w)%nat -> H' a c = H a c.
Definition twin3 (ws : list nat) (K : nat) (a b : rmat * rmat * rmat) : Prop := twin (fst a) (fst b) /\ eqH (length ws * T) K (snd a) (snd b) /\ hist_zero P1 ws (snd a).
Lemma t_accel W W' Z Z' H H' ws e K : ws_ok P1 ws -> twin (W, Z) (W', Z') -> eqH (length ws * T) K H H' -> hist_zero P1 ws H ->
  rel_res (twin3 ws K) (raccel P1 W Z H ws e K) (raccel P2 W' Z' H' ws e K).
Proof.
  intros [ND Hin] HT HH HZ. pose proof HT as [HP HD]. pose proof HP as (HW & F1 & F2). cbn [fst] in *.
  assert (AD := fun st H' => accel_dead P1 W Z H ws e K st H' ND Hin).
  unfold raccel in *. cbv zeta in *. rewrite ET. set (r := (e mod Datatypes.S K)%nat) in *.
  assert (HH' : eqH (length ws * T) K (rstore P1 H r W ws) (rstore P2 H' r W' ws)).
  { intros a c Ha Hc. unfold rstore. destruct (a =? r)%nat; [|apply HH; auto]. do 2 f_equal. apply map_ext_in. intros j Hj. apply trow; auto. }
  assert (HZ' : hist_zero P1 ws (rstore P1 H r W ws)) by (apply store_zero; auto).
  rewrite (xm_ext (Datatypes.S K) (length ws * T) (rstore P2 H' r W' ws) (rstore P1 H r W ws)) by (intros; apply HH'; auto; lia).
  destruct (r =? K)%nat; [|simpl; split; [|split]; auto].
  destruct (anderson_point _ _ _ _) as [[pt|]|]; cbn [bind] in *; [|simpl; split; [|split]; auto|reflexivity].
  assert (HV : pair (rscatter P1 pt ws, rfit P1 (rscatter P1 pt ws) ws) (rscatter P2 pt ws, rfit P2 (rscatter P2 pt ws) ws)).
  { split; [|split].
    - intros j t Hj Ht. cbn [fst]. unfold rscatter. rewrite ET. reflexivity.
    - apply scatter_fitted; auto.
    - apply scatter_fitted; auto. rewrite Ep. auto. }
  destruct (tw_obj TW) as (c & HC). pose proof (HC _ _ HV) as O1. pose proof (HC _ _ HP) as O2. cbn [fst snd] in O1, O2. rewrite O1, O2.
  replace (Rltb (robj P1 (rscatter P1 pt ws) (rfit P1 (rscatter P1 pt ws) ws) + c) (robj P1 W Z + c))
    with (Rltb (robj P1 (rscatter P1 pt ws) (rfit P1 (rscatter P1 pt ws) ws)) (robj P1 W Z)).
  2:{ destruct (Rltb (robj P1 (rscatter P1 pt ws) _) _) eqn:E; rb; symmetry; [apply Rltb_spec|apply Rltb_false]; lra. }
  destruct (Rltb _ _); simpl; [|split; [|split]; auto]. split; [|split; auto]. split; [exact HV|]. cbn [fst]. apply (AD _ _ eq_refl); auto.
Qed.
Lemma t_inner tol kmax K acc ws : ws_ok P1 ws -> forall es W W' Z Z' H H', twin (W, Z) (W', Z') -> eqH (length ws * T) K H H' -> hist_zero P1 ws H ->
  rel_res twin (rinner P1 tol kmax K acc ws es W Z H) (rinner P2 tol kmax K acc ws es W' Z' H').
Proof.
  intros Hws. induction es as [|e es IH]; intros W W' Z Z' H H' HT HH HZ; [exact HT|]. cbn [rinner].
  assert (A := t_steps ws (proj2 Hws) (W, Z) (W', Z') HT).
  destruct (fold_left (rstep P1) ws (W, Z)) as [W1 Z1], (fold_left (rstep P2) ws (W', Z')) as [W1' Z1'].
  apply (rel_bind (twin3 ws K)).
  { destruct acc; [apply t_accel; auto|simpl; split; [|split]; auto]. }
  intros [[W2 Z2] H2] [[W2' Z2'] H2'] (HT2 & HH2 & HZ2). cbn [fst snd] in *. cbv zeta.
  rewrite Ep, (t_kmax W2 W2' Z2 Z2') by (apply HT2 || apply (proj2 Hws)).
  destruct (_ && _); auto. destruct (length ws =? p)%nat.
  - destruct (xle _ _); [exact HT2|auto].
  - destruct (xlt _ _); [exact HT2|auto].
Qed.
Lemma t_outer tol K acc ws0 me : (ws0 <= p)%nat -> forall it W W' Z Z', twin (W, Z) (W', Z') ->
  rel_res twin (router P1 srt tol K acc ws0 me it W Z) (router P2 srt tol K acc ws0 me it W' Z').
Proof.
  intros H0. induction it as [|it IH]; intros W W' Z Z' HT; [exact HT|]. cbn [router]. rewrite Ep.
  rewrite (t_kmax W W' Z Z' (seq 0 p)) by (apply HT || (intros j Hj; apply in_seq in Hj; lia)).
  destruct (xle _ _); [exact HT|]. rewrite (t_sel W W' Z Z') by apply HT.
  destruct (select_ok xops srt xr_laws (rnz P1 W) p (tab p (fun j => Fin (rdist P1 W Z j))) ws0 VS H0) as (ws & E & (ND & IN) & _).
  { intros j Hj _. rewrite nth_tab by auto. reflexivity. }
  unfold rsel. rewrite E. cbn [bind].
  apply (rel_bind twin); [apply t_inner; [split; auto|auto|intros a c _ _; reflexivity|intros a k t _ _ _; reflexivity]|]. intros [W1 Z1] [W1' Z1'] A. apply IH; auto.
Qed.
Lemma t_solve tol K acc ws0 me it : rel_res (fun a b => eqW (fst a) (fst b)) (rsolve P1 srt tol K acc ws0 me it) (rsolve P2 srt tol K acc ws0 me it).
Proof.
  unfold rsolve. rewrite Ep. assert (S0 : twin (fun _ _ => 0, fun _ _ => 0) (fun _ _ => 0, fun _ _ => 0)).
  { split; [split; [|split]|]; [intros j t _ _; reflexivity| | |intros j t _ _ _; reflexivity]; intros i t _ _; cbn [fst snd]; unfold lin_mt; symmetry; apply Sum_zero; intros; ring. }
  pose proof (t_outer tol K acc (Nat.min ws0 p) me (Nat.le_min_r _ _) it _ _ _ _ S0) as H.
  destruct (router P1 _ _ _ _ _ _ _ _ _), (router P2 _ _ _ _ _ _ _ _ _); simpl in *; auto. apply H.
Qed.
End Twin.
