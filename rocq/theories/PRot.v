(** Two reference runs on problems whose tasks are combined by an isometry stay related. *)
From Coq Require Import List ZArith Bool Arith Reals Lra Lia.
From Verif Require Import Ops Arr XR SpecPen VecR MUtils MCd PBase RSum SpecLin PLin PLin2 PData PDatafit PAnderson PNoPanic PLaws SpecSolve PStruct PDescent PRef PRefCD PRefPen PSim SpecScale PScale SpecRot.
Import ListNotations.
Open Scope R_scope.

Definition rot (T T' : nat) (Q : rmat) (v : list R) : list R := tab T' (fun t => Sum T (fun u => nth u v 0 * Q u t)).
Lemma rot_length T T' Q v : length (rot T T' Q v) = T'. Proof. apply tab_length. Qed.
Lemma nth_rot T T' Q v t : (t < T')%nat -> nth t (rot T T' Q v) 0 = Sum T (fun u => nth u v 0 * Q u t).
Proof. intros. unfold rot. rewrite nth_tab; auto. Qed.
Lemma rot_tab T T' Q f : rot T T' Q (tab T f) = tab T' (fun t => Sum T (fun u => f u * Q u t)).
Proof. apply tab_ext. intros t _. apply Sum_ext. intros u Hu. rewrite nth_tab by auto. auto. Qed.
Lemma rot_scale T T' Q c v : length v = T -> rot T T' Q (vscale c v) = vscale c (rot T T' Q v).
Proof.
  intros Hv. unfold rot, vscale at 2. rewrite map_tab. apply tab_ext. intros t _. rewrite <- Sum_scal. apply Sum_ext. intros u Hu.
  unfold vscale. rewrite (nth_indep _ 0 (c * 0)) by (rewrite map_length; lia). rewrite (map_nth (fun x => c * x)). ring.
Qed.
Lemma rot_minus T T' Q v h : length v = T -> length h = T -> rot T T' Q (vminus v h) = vminus (rot T T' Q v) (rot T T' Q h).
Proof.
  intros Hv Hh. assert (E : forall f g m, vminus (tab m f) (tab m g) = tab m (fun t => f t - g t)).
  { intros f g m. unfold tab. generalize (seq 0 m) as l. induction l; simpl; f_equal; auto. }
  assert (N : forall u v h, nth u (vminus v h) 0 = if (u <? Nat.min (length v) (length h))%nat then nth u v 0 - nth u h 0 else 0).
  { clear. intros u v. revert u. induction v as [|x v IH]; intros u [|y h]; simpl; try (destruct u; reflexivity). destruct u as [|u]; simpl; auto. rewrite IH. reflexivity. }
  unfold rot. rewrite E. apply tab_ext. intros t _. rewrite <- Sum_minus. apply Sum_ext. intros u Hu. rewrite N, Hv, Hh, Nat.min_id. rewrite (proj2 (Nat.ltb_lt u T)) by auto. ring.
Qed.
Lemma rot_dot T T' Q f g : isometry T T' Q -> Sum T' (fun t => Sum T (fun u => f u * Q u t) * Sum T (fun u => g u * Q u t)) = Sum T (fun u => f u * g u).
Proof.
  intros HQ. rewrite (Sum_ext T' _ (fun t => Sum T (fun u => Sum T (fun v => f u * g v * (Q u t * Q v t))))).
  2:{ intros t _. rewrite <- Sum_scal_r. apply Sum_ext. intros u _. rewrite <- Sum_scal. apply Sum_ext. intros v _. ring. }
  rewrite Sum_swap. apply Sum_ext. intros u Hu. rewrite Sum_swap. rewrite (Sum_single T _ u); auto.
  - rewrite Sum_scal, HQ, Nat.eqb_refl by auto. ring.
  - intros v Hv Hne. rewrite Sum_scal, HQ by auto. rewrite (proj2 (Nat.eqb_neq u v)) by auto. ring.
Qed.
Lemma rot_norm T T' Q v : isometry T T' Q -> length v = T -> norm2 (rot T T' Q v) = norm2 v.
Proof.
  intros HQ Hv. unfold norm2. f_equal. unfold rot. rewrite dotp_tab, rot_dot by auto. rewrite <- dotp_tab. 
  replace (tab T (fun u => nth u v 0)) with v; auto. rewrite <- Hv. clear. induction v as [|x v IH] using rev_ind; [reflexivity|].
  rewrite app_length, Nat.add_1_r, tab_S. f_equal; [|rewrite app_nth2, Nat.sub_diag by lia; auto]. rewrite IH at 1. apply tab_ext. intros i Hi. rewrite app_nth1; auto.
Qed.

Section Rot.
Variables (P1 P2 : problem) (srt : list xr -> list nat) (Q : rmat) (VS : valid_sort xops srt) (acc : bool).
Local Notation p := (pp P1). Local Notation T := (pT P1). Local Notation T' := (pT P2). Local Notation n := (pn P1).
Local Notation rotQ := (rot T T' Q).
Hypotheses (Ep : pp P2 = p) (HQ : isometry T T' Q).
Hypothesis (HA : acc = false \/ (T' = T /\ exists e, e <> 0 /\ forall u t, (u < T)%nat -> (t < T)%nat -> Q u t = if (u =? t)%nat then e else 0)).
Definition relWr (W W' : rmat) : Prop := forall j t, (j < p)%nat -> (t < T')%nat -> W' j t = mixed T W Q j t.
Definition relZr (Z Z' : rmat) : Prop := forall i t, (i < n)%nat -> (t < T')%nat -> Z' i t = mixed T Z Q i t.
Record rsim : Prop := {
  rs_X : forall i j, (i < n)%nat -> (j < p)%nat -> pX P2 i j = pX P1 i j;
  rs_f : forall Z Z', relZr Z Z' -> pf P2 Z' = pf P1 Z;
  rs_g : forall Z Z' j t, relZr Z Z' -> (j < p)%nat -> (t < T')%nat -> pg P2 Z' j t = mixed T (pg P1 Z) Q j t;
  rs_L : forall j, (j < p)%nat -> pL P2 j = pL P1 j;
  rs_Lpos : forall j, (j < p)%nat -> 0 <= pL P1 j;
  rs_prox : forall v s, length v = T -> 0 < s -> pprox P2 (rotQ v) s = rotQ (pprox P1 v s) /\ length (pprox P1 v s) = T;
  rs_pv : forall v, length v = T -> ppv P2 (rotQ v) = ppv P1 v;
  rs_dist : forall v h, length v = T -> length h = T -> pdist P2 (rotQ v) (rotQ h) = pdist P1 v h
}.
Hypothesis (RS : rsim).
Definition relstr (a b : rmat * rmat) : Prop := relWr (fst a) (fst b) /\ relZr (snd a) (snd b).

Lemma rrow W W' j : relWr W W' -> (j < p)%nat -> row P2 W' j = rotQ (row P1 W j).
Proof. intros H Hj. unfold row. rewrite rot_tab. apply tab_ext. intros. rewrite H by auto. reflexivity. Qed.
Lemma rrel_step a b j : relstr a b -> (j < p)%nat -> relstr (rstep P1 a j) (rstep P2 b j).
Proof.
  destruct a as [W Z], b as [W' Z']. intros [HW HZ] Hj. cbn [fst snd] in *. unfold rstep. rewrite (rs_L RS) by auto.
  destruct (Reqb (pL P1 j) 0) eqn:E; [split; auto|]. rb. pose proof (rs_Lpos RS j Hj) as HL.
  assert (EU : rupd P2 W' Z' j = rotQ (rupd P1 W Z j) /\ length (rupd P1 W Z j) = T).
  { unfold rupd. rewrite (rs_L RS) by auto.
    replace (tab T' (fun t => W' j t - pg P2 Z' j t / pL P1 j)) with (rotQ (tab T (fun t => W j t - pg P1 Z j t / pL P1 j))).
    - apply (rs_prox RS); [apply tab_length|]. apply Rdiv_lt_0_compat; lra.
    - rewrite rot_tab. apply tab_ext. intros t Ht. rewrite HW, (rs_g RS Z Z') by auto. unfold mixed, Rdiv. rewrite <- Sum_scal_r, <- Sum_minus. apply Sum_ext. intros. ring. }
  destruct EU as [EU EL]. rewrite EU. split; cbn [fst snd].
  - intros i t Hi Ht. unfold mixed. destruct (Nat.eqb_spec i j) as [->|]; [apply nth_rot; auto|]. apply HW; auto.
  - intros i t Hi Ht. rewrite HZ, nth_rot, HW, (rs_X RS) by auto. unfold mixed. rewrite <- Sum_minus, <- Sum_scal_r, <- Sum_plus. apply Sum_ext. intros. ring.
Qed.
Lemma rrel_steps ws : (forall j, In j ws -> (j < p)%nat) -> forall a b, relstr a b -> relstr (fold_left (rstep P1) ws a) (fold_left (rstep P2) ws b).
Proof.
  induction ws as [|j ws IH]; intros Hin a b H; simpl; auto. apply IH; [intros; apply Hin; right; auto|]. apply rrel_step; auto. apply Hin; left; auto.
Qed.
Lemma rrel_dist W W' Z Z' j : relWr W W' -> relZr Z Z' -> (j < p)%nat -> rdist P2 W' Z' j = rdist P1 W Z j.
Proof.
  intros HW HZ Hj. unfold rdist. rewrite (rrow W W') by auto.
  replace (row P2 (pg P2 Z') j) with (rotQ (row P1 (pg P1 Z) j)).
  - apply (rs_dist RS); apply tab_length.
  - unfold row. rewrite rot_tab. apply tab_ext. intros. symmetry. apply (rs_g RS); auto.
Qed.
Lemma rrel_kmax W W' Z Z' ws : relWr W W' -> relZr Z Z' -> (forall j, In j ws -> (j < p)%nat) -> rkmax P2 W' Z' ws = rkmax P1 W Z ws.
Proof. intros HW HZ Hin. unfold rkmax. f_equal. apply map_ext_in. intros j Hj. f_equal. apply rrel_dist; auto. Qed.
Lemma rrel_obj W W' Z Z' : relWr W W' -> relZr Z Z' -> robj P2 W' Z' = robj P1 W Z.
Proof.
  intros HW HZ. unfold robj. rewrite Ep, (rs_f RS Z Z') by auto. f_equal. apply Sum_ext. intros j Hj. rewrite (rrow W W') by auto. apply (rs_pv RS). apply tab_length.
Qed.
Lemma rrel_sel W W' Z Z' ws0 : relWr W W' -> relZr Z Z' -> rsel P2 srt W' Z' ws0 = rsel P1 srt W Z ws0.
Proof.
  intros HW HZ. unfold rsel. rewrite Ep. apply select_ext.
  - intros j Hj. unfold rnz. rewrite (rrow W W'), rot_norm by (auto; apply tab_length). auto.
  - intros j Hj. rewrite !nth_tab by auto. f_equal. apply rrel_dist; auto.
Qed.
Lemma rrel_fit V V' ws : relWr V V' -> (forall j, In j ws -> (j < p)%nat) -> relZr (rfit P1 V ws) (rfit P2 V' ws).
Proof.
  intros HV Hin i t Hi Ht. unfold rfit, mixed. induction ws as [|j ws IH].
  - cbn [map]. change (Rsum []) with 0. symmetry. apply Sum_zero. intros. ring.
  - cbn [map]. change (Rsum (?a :: ?l)) with (a + Rsum l) in *. rewrite IH by (intros; apply Hin; right; auto). rewrite (rs_X RS), HV by (auto; apply Hin; left; auto).
    unfold mixed. rewrite <- Sum_scal, <- Sum_plus. apply Sum_ext. intros. change (Rsum (?a :: ?l)) with (a + Rsum l). ring.
Qed.

(** with acceleration the tasks may only change sign together *)
Definition relHr (wd K : nat) (H H' : rmat) : Prop := acc = false \/
  exists e, e <> 0 /\ (forall u t, (u < T)%nat -> (t < T)%nat -> Q u t = if (u =? t)%nat then e else 0) /\ forall a c, (a <= K)%nat -> (c < wd)%nat -> H' a c = e * H a c.
Definition relst3r (wd K : nat) (a b : rmat * rmat * rmat) : Prop := relstr (fst a) (fst b) /\ relHr wd K (snd a) (snd b).
Lemma rrel_accel W W' Z Z' H H' ws e K : acc = true -> (forall j, In j ws -> (j < p)%nat) ->
  relWr W W' -> relZr Z Z' -> relHr (length ws * T) K H H' ->
  rel_res (relst3r (length ws * T) K) (raccel P1 W Z H ws e K) (raccel P2 W' Z' H' ws e K).
Proof.
  intros Eacc Hin HW HZ HH. destruct HA as [?|[ET _]]; [congruence|]. destruct HH as [?|(w & Hw & Hd & HH)]; [congruence|].
  assert (MW : forall V V' j t, V' j t = mixed T V Q j t -> (t < T)%nat -> V' j t = w * V j t).
  { intros V V' j t E Ht. rewrite E. unfold mixed. rewrite (Sum_single T _ t) by (auto; intros u Hu Hne; rewrite Hd by auto; rewrite (proj2 (Nat.eqb_neq u t)) by auto; ring).
    rewrite Hd, Nat.eqb_refl by auto. ring. }
  assert (WM : forall V V' j t, V' j t = w * V j t -> (t < T)%nat -> V' j t = mixed T V Q j t).
  { intros V V' j t E Ht. rewrite E. unfold mixed. rewrite (Sum_single T _ t) by (auto; intros u Hu Hne; rewrite Hd by auto; rewrite (proj2 (Nat.eqb_neq u t)) by auto; ring).
    rewrite Hd, Nat.eqb_refl by auto. ring. }
  unfold raccel. rewrite ET. set (r := (e mod Datatypes.S K)%nat).
  assert (HH' : forall a c, (a <= K)%nat -> (c < length ws * T)%nat -> rstore P2 H' r W' ws a c = w * rstore P1 H r W ws a c).
  { intros a c Ha Hc. unfold rstore. destruct (a =? r)%nat; [|apply HH; auto].
    replace (concat (map (row P2 W') ws)) with (map (fun x => w * x) (concat (map (row P1 W) ws))).
    - rewrite (nth_indep _ 0 (w * 0)); [apply (map_nth (fun x => w * x))|]. rewrite map_length. clear - Hc. 
      replace (length (concat (map (row P1 W) ws))) with (length ws * T)%nat; auto. clear. induction ws as [|j ws IH]; simpl; auto. rewrite app_length, <- IH. unfold row at 1. rewrite tab_length. auto.
    - rewrite concat_map, map_map. f_equal. apply map_ext_in. intros j Hj. unfold row. rewrite ET, map_tab. apply tab_ext. intros t Ht. symmetry. apply MW; auto. apply HW; auto. lia. }
  assert (RH : relHr (length ws * T) K (rstore P1 H r W ws) (rstore P2 H' r W' ws)) by (right; exists w; auto).
  destruct (r =? K)%nat; [|simpl; split; [split|]; auto].
  eapply rel_bind; [apply (anderson_scaled K (length ws * T) w (rstore P1 H r W ws) (rstore P2 H' r W' ws)); auto|].
  intros [pt|] [pt'|] HP; try contradiction; [|simpl; split; [split|]; auto]. destruct HP as (f & -> & ->). cbv zeta.
  assert (HV : relWr (rscatter P1 (xv (length ws * T) f) ws) (rscatter P2 (xv (length ws * T) (fun b => w * f b)) ws)).
  { intros j t Hj Ht. rewrite ET in Ht. apply WM; auto. unfold rscatter. rewrite ET. destruct (pos j ws) as [k|] eqn:Ek; [|ring].
    assert (Hk : (k < length ws)%nat).
    { clear - Ek. revert k Ek. induction ws as [|a l IH]; intros k; simpl; [discriminate|]. destruct (j =? a)%nat; [injection 1 as <-; lia|]. destruct (pos j l) as [k'|]; [|discriminate]. injection 1 as <-. specialize (IH k' eq_refl). lia. }
    unfold xv. rewrite !nth_tab by nia. reflexivity. }
  assert (HF := rrel_fit _ _ ws HV Hin).
  rewrite (rrel_obj _ _ _ _ HV HF), (rrel_obj W W' Z Z') by auto. destruct (Rltb _ _); simpl; split; auto; split; auto.
Qed.
Lemma rrel_inner tol kmax K ws : (forall j, In j ws -> (j < p)%nat) -> forall es W W' Z Z' H H',
  relWr W W' -> relZr Z Z' -> relHr (length ws * T) K H H' ->
  rel_res relstr (rinner P1 tol kmax K acc ws es W Z H) (rinner P2 tol kmax K acc ws es W' Z' H').
Proof.
  intros Hin. induction es as [|e es IH]; intros W W' Z Z' H H' HW HZ HH; [split; auto|]. cbn [rinner].
  assert (A := rrel_steps ws Hin (W, Z) (W', Z') (conj HW HZ)).
  destruct (fold_left (rstep P1) ws (W, Z)) as [W1 Z1], (fold_left (rstep P2) ws (W', Z')) as [W1' Z1']. destruct A as [HW1 HZ1]. cbn [fst snd] in *.
  apply (rel_bind (relst3r (length ws * T) K)).
  { assert (HB : acc = true \/ acc = false) by (case acc; auto). destruct HB as [Eb|Eb]; rewrite Eb; [apply rrel_accel; auto|simpl; split; [split|]; auto]. }
  intros [[W2 Z2] H2] [[W2' Z2'] H2'] [[HW2 HZ2] HH2]. cbn [fst snd] in *. cbv zeta.
  rewrite Ep, (rrel_kmax W2 W2' Z2 Z2') by auto.
  destruct (_ && _); [|apply IH; auto]. destruct (length ws =? p)%nat.
  - destruct (xle _ _); [split; auto|apply IH; auto].
  - destruct (xlt _ _); [split; auto|apply IH; auto].
Qed.
Lemma rrel_0 m : forall i t, (i < m)%nat -> (t < T')%nat -> 0 = mixed T (fun _ _ => 0) Q i t.
Proof. intros. symmetry. apply Sum_zero. intros. ring. Qed.
Lemma rrel_outer tol K ws0 me : (ws0 <= p)%nat -> forall it W W' Z Z', relWr W W' -> relZr Z Z' ->
  rel_res relstr (router P1 srt tol K acc ws0 me it W Z) (router P2 srt tol K acc ws0 me it W' Z').
Proof.
  intros H0. induction it as [|it IH]; intros W W' Z Z' HW HZ; [split; auto|]. cbn [router]. rewrite Ep.
  rewrite (rrel_kmax W W' Z Z' (seq 0 p)) by (auto; intros j Hj; apply in_seq in Hj; lia).
  destruct (xle _ _); [split; auto|]. rewrite (rrel_sel W W' Z Z') by auto.
  destruct (select_ok xops srt xr_laws (rnz P1 W) p (tab p (fun j => Fin (rdist P1 W Z j))) ws0 VS H0) as (ws & E & (ND & IN) & _).
  { intros j Hj _. rewrite nth_tab by auto. reflexivity. }
  unfold rsel. rewrite E. cbn [bind].
  apply (rel_bind relstr); [apply rrel_inner; auto|intros [W1 Z1] [W1' Z1'] [A B]; apply IH; auto].
  destruct HA as [?|(_ & e & He & Hq)]; [left; auto|]. right. exists e. repeat split; auto. intros. ring.
Qed.
Lemma rrel_solve tol K ws0 me it : rel_res relstr (rsolve P1 srt tol K acc ws0 me it) (rsolve P2 srt tol K acc ws0 me it).
Proof.
  unfold rsolve. rewrite Ep. apply rrel_outer; [apply Nat.le_min_r| |]; intros i t Hi Ht; apply (rrel_0 (S i)); auto.
Qed.
End Rot.
