(** Two reference runs on related problems stay related. *)
From Coq Require Import List ZArith Bool Arith Reals Lra Lia.
From Verif Require Import Ops Arr XR SpecPen VecR MUtils MCd PBase RSum SpecLin PLin PNoPanic PLaws SpecSolve PRef PRefPen.
Import ListNotations.
Open Scope R_scope.

Definition rel_res {A B} (R : A -> B -> Prop) (m : res A) (m' : res B) : Prop :=
  match m, m' with
  | Ret a, Ret b => R a b
  | Panic e, Panic e' => e = e'
  | _, _ => False
  end.
Lemma rel_bind {A B A' B'} (R : A -> B -> Prop) (R' : A' -> B' -> Prop) m m' k k' :
  rel_res R m m' -> (forall a b, R a b -> rel_res R' (k a) (k' b)) -> rel_res R' (bind m k) (bind m' k').
Proof. destruct m, m'; simpl; intros H HK; try contradiction; auto. Qed.
Lemma rel_same {A} (R : A -> A -> Prop) m : (forall a, m = Ret a -> R a a) -> rel_res R m m.
Proof. destruct m; simpl; auto. Qed.

Section Sim.
Variables (P1 P2 : problem) (srt : list xr -> list nat) (s : nat -> R) (RZ : rmat -> rmat -> Prop) (VS : valid_sort xops srt).
Local Notation p := (pp P1). Local Notation T := (pT P1).
Hypotheses (Ep : pp P2 = p) (ET : pT P2 = T)
  (Hs : forall j, (j < p)%nat -> s j = 1 \/ s j = -1).
Definition relW (W W' : rmat) : Prop := forall j t, (j < p)%nat -> (t < T)%nat -> W' j t = s j * W j t.
Record sim : Prop := {
  sim_0 : RZ (fun _ _ => 0) (fun _ _ => 0);
  sim_upd : forall Z Z' j c c', RZ Z Z' -> (j < p)%nat -> (forall t, (t < T)%nat -> c' t = s j * c t) ->
    RZ (fun i t => Z i t + c t * pX P1 i j) (fun i t => Z' i t + c' t * pX P2 i j);
  sim_fit : forall V V' ws, relW V V' -> (forall j, In j ws -> (j < p)%nat) -> RZ (rfit P1 V ws) (rfit P2 V' ws);
  sim_f : forall Z Z', RZ Z Z' -> pf P2 Z' = pf P1 Z;
  sim_g : forall Z Z' j t, RZ Z Z' -> (j < p)%nat -> (t < T)%nat -> pg P2 Z' j t = s j * pg P1 Z j t;
  sim_L : forall j, (j < p)%nat -> pL P2 j = pL P1 j;
  sim_prox : forall v j, length v = T -> (j < p)%nat -> pL P1 j <> 0 ->
    pprox P2 (vscale (s j) v) (1 / pL P1 j) = vscale (s j) (pprox P1 v (1 / pL P1 j)) /\ length (pprox P1 v (1 / pL P1 j)) = T;
  sim_pv : forall v j, length v = T -> (j < p)%nat -> ppv P2 (vscale (s j) v) = ppv P1 v;
  sim_dist : forall v h j, length v = T -> length h = T -> (j < p)%nat -> pdist P2 (vscale (s j) v) (vscale (s j) h) = pdist P1 v h
}.
Hypothesis (S : sim).
Definition relst (a b : rmat * rmat) : Prop := relW (fst a) (fst b) /\ RZ (snd a) (snd b).

Lemma rel_row W W' j : relW W W' -> (j < p)%nat -> row P2 W' j = vscale (s j) (row P1 W j).
Proof. intros H Hj. unfold row, vscale. rewrite ET, map_tab. apply tab_ext. intros. apply H; auto. Qed.
Lemma rel_step a b j : relst a b -> (j < p)%nat -> relst (rstep P1 a j) (rstep P2 b j).
Proof.
  destruct a as [W Z], b as [W' Z']. intros [HW HZ] Hj. cbn [fst snd] in *. unfold rstep. rewrite (sim_L S) by auto.
  destruct (Reqb (pL P1 j) 0) eqn:E; [split; auto|]. rb.
  assert (EU : rupd P2 W' Z' j = vscale (s j) (rupd P1 W Z j) /\ length (rupd P1 W Z j) = T).
  { unfold rupd. rewrite ET, (sim_L S) by auto.
    replace (tab T (fun t => W' j t - pg P2 Z' j t / pL P1 j)) with (vscale (s j) (tab T (fun t => W j t - pg P1 Z j t / pL P1 j))).
    - apply (sim_prox S); auto. apply tab_length.
    - unfold vscale. rewrite map_tab. apply tab_ext. intros t Ht. rewrite HW, (sim_g S Z Z') by auto. field. auto. }
  destruct EU as [EU EL]. rewrite EU.
  assert (EN : forall t, (t < T)%nat -> nth t (vscale (s j) (rupd P1 W Z j)) 0 = s j * nth t (rupd P1 W Z j) 0).
  { intros t Ht. unfold vscale. rewrite (nth_indep _ 0 (s j * 0)) by (rewrite map_length; lia). apply (map_nth (fun x => s j * x)). }
  split; cbn [fst snd].
  - intros i t Hi Ht. destruct (Nat.eqb_spec i j) as [->|]; auto.
  - apply (sim_upd S Z Z' j (fun t => nth t (rupd P1 W Z j) 0 - W j t) (fun t => nth t (vscale (s j) (rupd P1 W Z j)) 0 - W' j t)); auto.
    intros t Ht. rewrite EN, HW by auto. ring.
Qed.
Lemma rel_steps ws : (forall j, In j ws -> (j < p)%nat) -> forall a b, relst a b -> relst (fold_left (rstep P1) ws a) (fold_left (rstep P2) ws b).
Proof.
  induction ws as [|j ws IH]; intros Hin a b H; simpl; auto. apply IH; [intros; apply Hin; right; auto|]. apply rel_step; auto. apply Hin; left; auto.
Qed.
Lemma rel_dist W W' Z Z' j : relW W W' -> RZ Z Z' -> (j < p)%nat -> rdist P2 W' Z' j = rdist P1 W Z j.
Proof.
  intros HW HZ Hj. unfold rdist. rewrite (rel_row W W') by auto.
  replace (row P2 (pg P2 Z') j) with (vscale (s j) (row P1 (pg P1 Z) j)).
  - apply (sim_dist S); auto; apply tab_length.
  - unfold row, vscale. rewrite ET, map_tab. apply tab_ext. intros. symmetry. apply (sim_g S); auto.
Qed.
Lemma rel_kmax W W' Z Z' ws : relW W W' -> RZ Z Z' -> (forall j, In j ws -> (j < p)%nat) -> rkmax P2 W' Z' ws = rkmax P1 W Z ws.
Proof. intros HW HZ Hin. unfold rkmax. f_equal. apply map_ext_in. intros j Hj. f_equal. apply rel_dist; auto. Qed.
Lemma rel_obj W W' Z Z' : relW W W' -> RZ Z Z' -> robj P2 W' Z' = robj P1 W Z.
Proof.
  intros HW HZ. unfold robj. rewrite Ep, (sim_f S Z Z') by auto. f_equal. apply Sum_ext. intros j Hj. rewrite (rel_row W W') by auto.
  apply (sim_pv S); auto. apply tab_length.
Qed.
Lemma rel_sel W W' Z Z' ws0 : relW W W' -> RZ Z Z' -> rsel P2 srt W' Z' ws0 = rsel P1 srt W Z ws0.
Proof.
  intros HW HZ. unfold rsel. rewrite Ep. apply select_ext.
  - intros j Hj. unfold rnz. rewrite (rel_row W W'), norm2_scale by auto. f_equal.
    replace (Rabs (s j)) with 1; [rewrite Rmult_1_l; auto|]. destruct (Hs j Hj) as [-> | ->]; unfold Rabs; destruct (Rcase_abs _); lra.
  - intros j Hj. rewrite !nth_tab by auto. f_equal. apply rel_dist; auto.
Qed.

(** extrapolation, when no sign changes *)
Hypothesis (acc : bool).
Hypothesis (Hacc : acc = true -> forall j, (j < p)%nat -> s j = 1).
Definition relH (w K : nat) (H H' : rmat) : Prop := forall a c, (a <= K)%nat -> (c < w)%nat -> H' a c = H a c.
Definition relst3 (w K : nat) (a b : rmat * rmat * rmat) : Prop := relst (fst a) (fst b) /\ relH w K (snd a) (snd b).
Lemma rel_scatter (s1 : forall j, (j < p)%nat -> s j = 1) pt ws : relW (rscatter P1 pt ws) (rscatter P2 pt ws).
Proof. intros j t Hj Ht. rewrite s1 by auto. unfold rscatter. rewrite ET. destruct (pos j ws); ring. Qed.
Lemma rel_accel (s1 : forall j, (j < p)%nat -> s j = 1) W W' Z Z' H H' ws e K : (forall j, In j ws -> (j < p)%nat) ->
  relW W W' -> RZ Z Z' -> relH (length ws * T) K H H' ->
  rel_res (relst3 (length ws * T) K) (raccel P1 W Z H ws e K) (raccel P2 W' Z' H' ws e K).
Proof.
  intros Hin HW HZ HH. unfold raccel. rewrite ET. set (r := (e mod Datatypes.S K)%nat).
  assert (HH' : relH (length ws * T) K (rstore P1 H r W ws) (rstore P2 H' r W' ws)).
  { intros a c Ha Hc. unfold rstore. destruct (a =? r)%nat; [|apply HH; auto]. do 2 f_equal. apply map_ext_in. intros j Hj.
    rewrite (rel_row W W') by auto. rewrite s1 by auto. unfold vscale. rewrite <- (map_id (row P1 W j)) at 2. apply map_ext. intros; ring. }
  rewrite (xm_ext (Datatypes.S K) (length ws * T) (rstore P2 H' r W' ws) (rstore P1 H r W ws)) by (intros; apply HH'; auto; lia).
  destruct (r =? K)%nat; [|simpl; split; [split|]; auto].
  apply (rel_bind eq); [apply rel_same; auto|]. intros [pt|] ? <-; [|simpl; split; [split|]; auto]. cbv zeta.
  assert (HV := rel_scatter s1 pt ws). assert (HF := sim_fit S _ _ ws HV Hin).
  rewrite (rel_obj _ _ _ _ HV HF), (rel_obj W W' Z Z') by auto. destruct (Rltb _ _); simpl; split; auto; split; auto.
Qed.
Lemma rel_inner tol kmax K ws : (forall j, In j ws -> (j < p)%nat) -> forall es W W' Z Z' H H',
  relW W W' -> RZ Z Z' -> relH (length ws * T) K H H' ->
  rel_res relst (rinner P1 tol kmax K acc ws es W Z H) (rinner P2 tol kmax K acc ws es W' Z' H').
Proof.
  intros Hin. induction es as [|e es IH]; intros W W' Z Z' H H' HW HZ HH; [split; auto|]. cbn [rinner].
  assert (A := rel_steps ws Hin (W, Z) (W', Z') (conj HW HZ)).
  destruct (fold_left (rstep P1) ws (W, Z)) as [W1 Z1], (fold_left (rstep P2) ws (W', Z')) as [W1' Z1']. destruct A as [HW1 HZ1]. cbn [fst snd] in *.
  apply (rel_bind (relst3 (length ws * T) K)).
  { destruct acc; [apply rel_accel; auto|simpl; split; [split|]; auto]. }
  intros [[W2 Z2] H2] [[W2' Z2'] H2'] [[HW2 HZ2] HH2]. cbn [fst snd] in *. cbv zeta.
  rewrite Ep, (rel_kmax W2 W2' Z2 Z2') by auto.
  destruct (_ && _); auto. destruct (length ws =? p)%nat.
  - destruct (xle _ _); [split; auto|auto].
  - destruct (xlt _ _); [split; auto|auto].
Qed.
Lemma rel_outer tol K ws0 me : (ws0 <= p)%nat -> forall it W W' Z Z', relW W W' -> RZ Z Z' ->
  rel_res relst (router P1 srt tol K acc ws0 me it W Z) (router P2 srt tol K acc ws0 me it W' Z').
Proof.
  intros H0. induction it as [|it IH]; intros W W' Z Z' HW HZ; [split; auto|]. cbn [router]. rewrite Ep.
  rewrite (rel_kmax W W' Z Z' (seq 0 p)) by (auto; intros j Hj; apply in_seq in Hj; lia).
  destruct (xle _ _); [split; auto|]. rewrite (rel_sel W W' Z Z') by auto.
  destruct (select_ok xops srt xr_laws (rnz P1 W) p (tab p (fun j => Fin (rdist P1 W Z j))) ws0 VS H0) as (ws & E & (ND & IN) & _).
  { intros j Hj _. rewrite nth_tab by auto. reflexivity. }
  unfold rsel. rewrite E. cbn [bind].
  apply (rel_bind relst); [apply rel_inner; auto; intros a c _ _; reflexivity|]. intros [W1 Z1] [W1' Z1'] [A B]. apply IH; auto.
Qed.
Lemma rel_solve tol K ws0 me it : rel_res relst (rsolve P1 srt tol K acc ws0 me it) (rsolve P2 srt tol K acc ws0 me it).
Proof.
  unfold rsolve. rewrite Ep. apply rel_outer; [apply Nat.le_min_r| |apply (sim_0 S)]. intros j t _ _. ring.
Qed.
End Sim.
