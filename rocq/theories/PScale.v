(** Two reference runs on problems that differ by units stay related. *)
From Coq Require Import List ZArith Bool Arith Reals Lra Lia Permutation.
From Verif Require Import Ops Arr XR SpecPen VecR MUtils MCd PBase RSum SpecLin PLin PLin2 PData PDatafit PAnderson PNoPanic PLaws SpecSolve PStruct PRef PRefCD PRefPen PSim SpecScale.
Import ListNotations.
Open Scope R_scope.

(** *** the insertion sort compares only *)
Lemma ins_ext {F} (o : FOps F) l l' k is : (forall a, In a is -> flt o (at_ o l' k) (at_ o l' a) = flt o (at_ o l k) (at_ o l a)) -> ins o l' k is = ins o l k is.
Proof.
  induction is as [|a is IH]; intros H; cbn [ins]; auto. rewrite H by (left; auto). destruct (flt o _ _); auto. f_equal. apply IH. intros b Hb. apply H. right; auto.
Qed.
Lemma dsort_by_comparison {F} (o : FOps F) : by_comparison o (dsort o).
Proof.
  intros l l' EL _ _ H. unfold dsort. rewrite <- EL.
  assert (G : forall js, (forall j, In j js -> (j < length l)%nat) -> fold_right (ins o l') [] js = fold_right (ins o l) [] js).
  { induction js as [|j js IH]; intros Hj; simpl; auto. rewrite IH by (intros; apply Hj; right; auto). apply ins_ext. intros a Ha.
    assert (Hjl : (j < length l)%nat) by (apply Hj; left; auto).
    assert (Hal : (a < length l)%nat).
    { apply Hj. right. assert (P : Permutation (fold_right (ins o l) [] js) js).
      { clear. induction js as [|b js IH]; simpl; auto. eapply perm_trans; [apply ins_perm|]. apply perm_skip; auto. }
      apply (Permutation_in _ P Ha). }
    assert (E : forall m i, (i < length m)%nat -> nth_error m i = Some (at_ o m i)) by (intros; apply nth_error_nth'; auto).
    apply (H j a); apply E; lia. }
  apply G. intros j Hj. apply in_seq in Hj. lia.
Qed.

(** *** scaling extended numbers *)
Definition xsc (d : R) (x : xr) : xr := match x with Fin r => Fin (d * r) | _ => x end.
Lemma ltb_sc d a b : 0 < d -> Rltb (d * a) (d * b) = Rltb a b.
Proof. intros Hd. destruct (Rltb a b) eqn:E; rb; [apply Rltb_spec; nra|apply Rltb_false; nra]. Qed.
Lemma leb_sc d a b : 0 < d -> Rleb (d * a) (d * b) = Rleb a b.
Proof. intros Hd. destruct (Rleb a b) eqn:E; rb; [apply Rleb_spec; nra|apply Rleb_false; nra]. Qed.
Lemma eqb_sc d a : 0 < d -> Reqb (d * a) 0 = Reqb a 0.
Proof. intros Hd. destruct (Reqb a 0) eqn:E; rb; [apply Reqb_spec; rewrite E; ring|apply Reqb_false; nra]. Qed.
Lemma xlt_sc d a b : 0 < d -> xlt (xsc d a) (xsc d b) = xlt a b.
Proof. intros Hd. destruct a, b; simpl; auto. apply ltb_sc; auto. Qed.
Lemma xle_sc d a b : 0 < d -> xle (xsc d a) (xsc d b) = xle a b.
Proof. intros Hd. destruct a, b; simpl; auto. apply leb_sc; auto. Qed.
Lemma xmax_sc d a b : 0 < d -> xmax (xsc d a) (xsc d b) = xsc d (xmax a b).
Proof. intros Hd. destruct a, b; simpl; auto. f_equal. apply RmaxRmult. lra. Qed.
Lemma fold_max_sc d l : 0 < d -> forall a, fold_max xops (xsc d a) (map (xsc d) l) = xsc d (fold_max xops a l).
Proof.
  intros Hd. unfold fold_max. induction l as [|x l IH]; intros a; simpl; auto. change (fmax xops) with xmax in *. rewrite xmax_sc by auto. apply IH.
Qed.
Lemma xmul_sc d q a : 0 < d -> 0 < q -> xmul (Fin q) (xsc d a) = xsc d (xmul (Fin q) a).
Proof.
  intros Hd Hq. destruct a as [r| | |]; simpl; auto; [f_equal; ring| |]; unfold inf_of; repeat rcase; simpl; auto; lra.
Qed.

(** *** extrapolation: the weights do not depend on the units *)
Definition colscaled (K : nat) (q : R) (M M' : rmat) : Prop := forall i j, (i < K)%nat -> (j <= K)%nat -> M' i j = (if (j =? K)%nat then 1 else q) * M i j.
Lemma fstep_scaled K q M M' i : 0 < q -> (i < K)%nat -> colscaled K q M M' -> colscaled K q (fstep i M) (fstep i M').
Proof.
  intros Hq Hi H r k Hr Hk. assert (E : M' i i = q * M i i) by (rewrite H by lia; rewrite (proj2 (Nat.eqb_neq i K)) by lia; auto). unfold fstep.
  destruct (Req_EM_T (M i i) 0) as [Z|Z], (Req_EM_T (M' i i) 0) as [Z'|Z'].
  - apply H; auto.
  - exfalso. apply Z'. rewrite E, Z. ring.
  - exfalso. rewrite E in Z'. nra.
  - destruct (_ && _); [|apply H; auto]. rewrite E, (H r k), (H r i), (H i k) by lia. rewrite (proj2 (Nat.eqb_neq i K)) by lia. field. split; [auto|lra].
Qed.
Lemma fwd_scaled last q A A' b : 0 < q -> (forall i j, A' i j = q * A i j) -> colscaled (S last) q (fwd last A b) (fwd last A' b).
Proof.
  intros Hq HA. unfold fwd. assert (H0 : colscaled (S last) q (aug last A b) (aug last A' b)).
  { intros i j Hi Hj. unfold aug. destruct (_ =? _)%nat; [ring|auto]. }
  revert H0. generalize (aug last A b), (aug last A' b). assert (Hin : forall i, In i (seq 0 last) -> (i < S last)%nat) by (intros i Hi; apply in_seq in Hi; lia).
  revert Hin. induction (seq 0 last) as [|i is IH]; intros Hin M M' H; simpl; auto. apply IH; [intros; apply Hin; right; auto|]. apply fstep_scaled; auto. apply Hin; left; auto.
Qed.
Lemma first_zero_scaled K q M M' : 0 < q -> colscaled K q M M' -> first_zero M' (seq 0 K) = first_zero M (seq 0 K).
Proof.
  intros Hq H. unfold first_zero. assert (Hin : forall i, In i (seq 0 K) -> (i < K)%nat) by (intros i Hi; apply in_seq in Hi; lia).
  revert Hin. induction (seq 0 K) as [|i is IH]; intros Hin; simpl; auto. rewrite IH by (intros; apply Hin; right; auto). f_equal.
  assert (i < K)%nat by (apply Hin; left; auto). rewrite H by lia. rewrite (proj2 (Nat.eqb_neq i K)) by lia. apply eqb_sc; auto.
Qed.
Lemma psd_solve last w A : (S last <= w)%nat -> symmetric (S last) A -> pos_semidef (S last) A -> exists x,
  solve_lin_sys xops (xm w w A) (xv (S last) (fun _ => 1)) = Ret (if first_zero (fwd last A (fun _ => 1)) (seq 0 (S last)) then Err SingularMatrix else Ok (xv (S last) x)) /\
  (first_zero (fwd last A (fun _ => 1)) (seq 0 (S last)) = false -> forall y, (forall r, (r < S last)%nat -> Sum (S last) (fun k => A r k * y k) = 1) <-> (forall r, (r < S last)%nat -> y r = x r)).
Proof.
  intros Hw Hs Hp. apply (solve_spec last (psd_from (S last))); auto.
  - intros i M Hi. apply psd_zero; auto.
  - intros i M Hi. apply psd_step; auto.
  - apply psd_aug; auto.
Qed.
Lemma gram_ones K U x : (1 <= K)%nat -> (forall r, (r < K)%nat -> Sum K (fun k => gram K U r k * x k) = 1) -> Sum K x <> 0.
Proof.
  intros HK Hsol E0. assert (Hq : quad K (gram K U) x = Sum K x) by (apply Sum_ext; intros r Hr; rewrite Hsol by auto; ring).
  assert (Z := psd_kernel K (gram K U) x (gram_sym _ _ _) (gram_psd _ _ _) ltac:(rewrite Hq; lra)). specialize (Z 0%nat ltac:(lia)). rewrite Hsol in Z by lia. lra.
Qed.
Lemma combine_point K width H c : foldM (vadd xops) (map2 (fun row c_k => map (fun x => fmul xops x c_k) row) (tab K (fun k => xv width (H k))) (xv K c)) (vzeros xops width)
  = Ret (xv width (fun b => Sum K (fun k => c k * H k b))).
Proof.
  unfold xv at 2. rewrite map2_tab, vzeros_xv. induction K as [|m IH].
  - simpl. f_equal.
  - rewrite tab_S, foldM_app, IH. cbn [bind foldM]. unfold vadd, vbin. rewrite map_length, !xv_length, Nat.eqb_refl. cbn [bind].
    f_equal. unfold xv. rewrite map_tab, map2_tab. apply tab_ext. intros b _. cbn [fmul fadd xops xmul xadd]. f_equal. rewrite Sum_S. ring.
Qed.
Lemma anderson_scaled K width w H H' : w <> 0 -> (forall a b, (a <= K)%nat -> (b < width)%nat -> H' a b = w * H a b) ->
  rel_res (fun o o' => match o, o' with None, None => True | Some pt, Some pt' => exists f, pt = xv width f /\ pt' = xv width (fun b => w * f b) | _, _ => False end)
    (anderson_point xops (xm (S K) width H) width K) (anderson_point xops (xm (S K) width H') width K).
Proof.
  intros Hw HH. destruct K as [|last]; [rewrite !(anderson_k0 xops) by apply xm_shaped; reflexivity|].
  destruct (Nat.lt_ge_cases width (S last)) as [HK|HK]; [rewrite !(anderson_oob xops) by (auto; apply xm_shaped); reflexivity|].
  rewrite (xm_ext (S (S last)) width H' (fun a b => w * H a b)) by (intros; apply HH; lia). clear H' HH. rewrite !anderson_prefix.
  set (G := gram (S last) (diffs_of H)). set (G' := gram (S last) (diffs_of (fun a b => w * H a b))).
  assert (EG : forall i j, G' i j = (w * w) * G i j). { intros i j. unfold G, G', gram. rewrite <- Sum_scal. apply Sum_ext. intros k _. unfold diffs_of. ring. }
  assert (Hq : 0 < w * w) by (apply Rlt_0_sqr; auto).
  destruct (psd_solve last width G HK (gram_sym _ _ _) (gram_psd _ _ _)) as (x & E & Hx).
  destruct (psd_solve last width G' HK (gram_sym _ _ _) (gram_psd _ _ _)) as (x' & E' & Hx').
  rewrite E, E'. rewrite (first_zero_scaled _ _ _ _ Hq (fwd_scaled last (w * w) G G' (fun _ => 1) Hq EG)) in *.
  destruct (first_zero _ _); [exact I|]. specialize (Hx eq_refl). specialize (Hx' eq_refl). cbn [bind]. cbv zeta.
  assert (S1 := proj2 (Hx x) (fun _ _ => eq_refl)). assert (S2 := proj2 (Hx' x') (fun _ _ => eq_refl)).
  assert (N1 := gram_ones (S last) (diffs_of H) x ltac:(lia) S1). assert (N2 := gram_ones (S last) _ x' ltac:(lia) S2).
  assert (EX : forall r, (r < S last)%nat -> w * w * x' r = x r).
  { apply (proj1 (Hx (fun r => w * w * x' r))). intros r Hr. rewrite <- (S2 r Hr). apply Sum_ext. intros k _. rewrite EG. ring. }
  assert (ES : w * w * Sum (S last) x' = Sum (S last) x) by (rewrite <- Sum_scal; apply Sum_ext; auto).
  assert (C : forall v, Sum (S last) v <> 0 -> map (fun zi => fdiv xops zi (nsum xops (xv (S last) v))) (xv (S last) v) = xv (S last) (fun k => v k / Sum (S last) v)).
  { intros v Hv. cbn [nsum xops]. unfold xv at 1 2. rewrite xsum_tab. rewrite map_tab. apply tab_ext. intros. apply xdiv_fin; auto. }
  rewrite !C by auto. rewrite !combine_point. cbn [bind]. exists (fun b => Sum (S last) (fun k => x k / Sum (S last) x * H k b)). split; [reflexivity|].
  unfold xv. apply tab_ext. intros b _. f_equal. rewrite <- Sum_scal. apply Sum_ext. intros k Hk. rewrite <- (EX k Hk), <- ES. field. split; auto.
Qed.

(** *** the simulation *)
Section Scale.
Variables (P1 P2 : problem) (srt : list xr -> list nat) (w lam : R) (RZ : rmat -> rmat -> Prop) (VS : valid_sort xops srt).
Local Notation p := (pp P1). Local Notation T := (pT P1). Local Notation d := (w * lam). Local Notation beta := (w * w * lam).
Hypotheses (Ep : pp P2 = p) (ET : pT P2 = T) (Hw : 0 < w) (Hlam : 0 < lam) (BC : d = 1 \/ by_comparison xops srt).
Definition relWs (W W' : rmat) : Prop := forall j t, (j < p)%nat -> (t < T)%nat -> W' j t = w * W j t.
Record ssim : Prop := {
  ss_0 : RZ (fun _ _ => 0) (fun _ _ => 0);
  ss_upd : forall Z Z' j c c', RZ Z Z' -> (j < p)%nat -> (forall t, (t < T)%nat -> c' t = w * c t) ->
    RZ (fun i t => Z i t + c t * pX P1 i j) (fun i t => Z' i t + c' t * pX P2 i j);
  ss_fit : forall V V' ws, relWs V V' -> (forall j, In j ws -> (j < p)%nat) -> RZ (rfit P1 V ws) (rfit P2 V' ws);
  ss_f : forall Z Z', RZ Z Z' -> pf P2 Z' = beta * pf P1 Z;
  ss_g : forall Z Z' j t, RZ Z Z' -> (j < p)%nat -> (t < T)%nat -> pg P2 Z' j t = d * pg P1 Z j t;
  ss_L : forall j, (j < p)%nat -> pL P2 j = lam * pL P1 j;
  ss_Lpos : forall j, (j < p)%nat -> 0 <= pL P1 j;
  ss_prox : forall v j, length v = T -> (j < p)%nat -> 0 < pL P1 j ->
    pprox P2 (vscale w v) (1 / (lam * pL P1 j)) = vscale w (pprox P1 v (1 / pL P1 j)) /\ length (pprox P1 v (1 / pL P1 j)) = T;
  ss_pv : forall v, length v = T -> ppv P2 (vscale w v) = beta * ppv P1 v;
  ss_dist : forall v h, length v = T -> length h = T -> pdist P2 (vscale w v) (vscale d h) = d * pdist P1 v h
}.
Hypothesis (SS : ssim).
Let Hd : 0 < d. Proof. apply Rmult_lt_0_compat; auto. Qed.
Let Hb : 0 < beta. Proof. apply Rmult_lt_0_compat; [apply Rmult_lt_0_compat|]; auto. Qed.
Definition relsts (a b : rmat * rmat) : Prop := relWs (fst a) (fst b) /\ RZ (snd a) (snd b).

Lemma srow W W' j : relWs W W' -> (j < p)%nat -> row P2 W' j = vscale w (row P1 W j).
Proof. intros H Hj. unfold row, vscale. rewrite ET, map_tab. apply tab_ext. intros. apply H; auto. Qed.
Lemma srel_step a b j : relsts a b -> (j < p)%nat -> relsts (rstep P1 a j) (rstep P2 b j).
Proof.
  destruct a as [W Z], b as [W' Z']. intros [HW HZ] Hj. cbn [fst snd] in *. unfold rstep. rewrite (ss_L SS) by auto. rewrite eqb_sc by auto.
  destruct (Reqb (pL P1 j) 0) eqn:E; [split; auto|]. rb. pose proof (ss_Lpos SS j Hj) as HL.
  assert (EU : rupd P2 W' Z' j = vscale w (rupd P1 W Z j) /\ length (rupd P1 W Z j) = T).
  { unfold rupd. rewrite ET, (ss_L SS) by auto.
    replace (tab T (fun t => W' j t - pg P2 Z' j t / (lam * pL P1 j))) with (vscale w (tab T (fun t => W j t - pg P1 Z j t / pL P1 j))).
    - apply (ss_prox SS); auto; [apply tab_length|lra].
    - unfold vscale. rewrite map_tab. apply tab_ext. intros t Ht. rewrite HW, (ss_g SS Z Z') by auto. field. split; auto. lra. }
  destruct EU as [EU EL]. rewrite EU.
  assert (EN : forall t, (t < T)%nat -> nth t (vscale w (rupd P1 W Z j)) 0 = w * nth t (rupd P1 W Z j) 0).
  { intros t Ht. unfold vscale. rewrite (nth_indep _ 0 (w * 0)) by (rewrite map_length; lia). apply (map_nth (fun x => w * x)). }
  split; cbn [fst snd].
  - intros i t Hi Ht. destruct (Nat.eqb_spec i j) as [->|]; auto.
  - apply (ss_upd SS Z Z' j (fun t => nth t (rupd P1 W Z j) 0 - W j t) (fun t => nth t (vscale w (rupd P1 W Z j)) 0 - W' j t)); auto.
    intros t Ht. rewrite EN, HW by auto. ring.
Qed.
Lemma srel_steps ws : (forall j, In j ws -> (j < p)%nat) -> forall a b, relsts a b -> relsts (fold_left (rstep P1) ws a) (fold_left (rstep P2) ws b).
Proof.
  induction ws as [|j ws IH]; intros Hin a b H; simpl; auto. apply IH; [intros; apply Hin; right; auto|]. apply srel_step; auto. apply Hin; left; auto.
Qed.
Lemma srel_dist W W' Z Z' j : relWs W W' -> RZ Z Z' -> (j < p)%nat -> rdist P2 W' Z' j = d * rdist P1 W Z j.
Proof.
  intros HW HZ Hj. unfold rdist. rewrite (srow W W') by auto.
  replace (row P2 (pg P2 Z') j) with (vscale d (row P1 (pg P1 Z) j)).
  - apply (ss_dist SS); auto; apply tab_length.
  - unfold row, vscale. rewrite ET, map_tab. apply tab_ext. intros. symmetry. apply (ss_g SS); auto.
Qed.
Lemma srel_kmax W W' Z Z' ws : relWs W W' -> RZ Z Z' -> (forall j, In j ws -> (j < p)%nat) -> rkmax P2 W' Z' ws = xsc d (rkmax P1 W Z ws).
Proof.
  intros HW HZ Hin. unfold rkmax. rewrite <- fold_max_sc by auto. cbn [xsc]. f_equal. rewrite map_map. apply map_ext_in. intros j Hj. cbn [xsc]. f_equal. apply srel_dist; auto.
Qed.
Lemma srel_obj W W' Z Z' : relWs W W' -> RZ Z Z' -> robj P2 W' Z' = beta * robj P1 W Z.
Proof.
  intros HW HZ. unfold robj. rewrite Ep, (ss_f SS Z Z'), Rmult_plus_distr_l by auto. f_equal. rewrite <- Sum_scal. apply Sum_ext. intros j Hj. rewrite (srow W W') by auto.
  apply (ss_pv SS); auto. apply tab_length.
Qed.
Lemma srel_sel W W' Z Z' ws0 : relWs W W' -> RZ Z Z' -> rsel P2 srt W' Z' ws0 = rsel P1 srt W Z ws0.
Proof.
  intros HW HZ. unfold rsel. rewrite Ep.
  assert (EN : forall j, (j < p)%nat -> rnz P2 W' j = rnz P1 W j).
  { intros j Hj. unfold rnz. rewrite (srow W W'), norm2_scale by auto. f_equal. rewrite (Rabs_right w) by lra. apply eqb_sc; auto. }
  rewrite (select_ext srt (rnz P2 W') (rnz P1 W) p _ (tab p (fun j => xsc d (Fin (rdist P1 W Z j))))); auto.
  2:{ intros j Hj. rewrite !nth_tab by auto. cbn [xsc]. f_equal. apply srel_dist; auto. }
  destruct BC as [E1|BC'].
  - apply select_ext; auto. intros j Hj. rewrite !nth_tab by auto. cbn [xsc]. rewrite E1. f_equal. ring.
  - unfold select. set (m' := marked _ _ _ _). set (m := marked xops _ _ (tab p (fun j => Fin (rdist P1 W Z j)))).
    assert (Em' : m' = map (xsc d) m).
    { unfold m, m', marked. rewrite map_tab. apply tab_ext. intros j Hj. rewrite !nth_tab by auto. destruct (rnz P1 W j); reflexivity. }
    assert (Hm : existsb (fisnan xops) m = false).
    { unfold m, marked, tab. apply not_true_iff_false. intros H. apply existsb_exists in H as (x & Hx & Nx). apply in_map_iff in Hx as (j & <- & Hj). apply in_seq in Hj.
      destruct (rnz P1 W j); [discriminate|]. fold (tab p (fun j => Fin (rdist P1 W Z j))) in Nx. rewrite nth_tab in Nx by lia. discriminate. }
    assert (Hm' : existsb (fisnan xops) m' = false).
    { rewrite Em'. apply not_true_iff_false. intros H. apply existsb_exists in H as (x & Hx & Nx). apply in_map_iff in Hx as (x0 & <- & Hx).
      apply (not_true_iff_false (existsb (fisnan xops) m)); auto. apply existsb_exists. exists x0. split; auto. destruct x0; auto. }
    unfold argsort_desc. rewrite Hm, Hm', !andb_false_r. cbn [bind].
    replace (srt m') with (srt m); [reflexivity|]. symmetry. apply BC'; auto; [rewrite Em', map_length; auto|].
    intros i j x y x' y' H1 H2 H3 H4. rewrite Em' in H3, H4. rewrite nth_error_map in H3, H4. rewrite H1 in H3. rewrite H2 in H4. injection H3 as <-. injection H4 as <-.
    apply xlt_sc; auto.
Qed.

Definition relHs (wd K : nat) (H H' : rmat) : Prop := forall a c, (a <= K)%nat -> (c < wd)%nat -> H' a c = w * H a c.
Definition relst3s (wd K : nat) (a b : rmat * rmat * rmat) : Prop := relsts (fst a) (fst b) /\ relHs wd K (snd a) (snd b).
Lemma srel_accel W W' Z Z' H H' ws e K : (forall j, In j ws -> (j < p)%nat) ->
  relWs W W' -> RZ Z Z' -> relHs (length ws * T) K H H' ->
  rel_res (relst3s (length ws * T) K) (raccel P1 W Z H ws e K) (raccel P2 W' Z' H' ws e K).
Proof.
  intros Hin HW HZ HH. unfold raccel. rewrite ET. set (r := (e mod Datatypes.S K)%nat).
  assert (HH' : relHs (length ws * T) K (rstore P1 H r W ws) (rstore P2 H' r W' ws)).
  { intros a c Ha Hc. unfold rstore. destruct (a =? r)%nat; [|apply HH; auto].
    replace (concat (map (row P2 W') ws)) with (map (fun x => w * x) (concat (map (row P1 W) ws))).
    - rewrite (nth_indep _ 0 (w * 0)); [apply (map_nth (fun x => w * x))|]. rewrite map_length. clear - Hc. 
      replace (length (concat (map (row P1 W) ws))) with (length ws * T)%nat; auto. clear. induction ws as [|j ws IH]; simpl; auto. rewrite app_length, <- IH. unfold row at 1. rewrite tab_length. auto.
    - rewrite concat_map, map_map. f_equal. apply map_ext_in. intros j Hj. symmetry. apply srow; auto. }
  destruct (r =? K)%nat; [|simpl; split; [split|]; auto].
  eapply rel_bind; [apply (anderson_scaled K (length ws * T) w (rstore P1 H r W ws) (rstore P2 H' r W' ws)); auto; lra|].
  intros [pt|] [pt'|] HP; try contradiction; [|simpl; split; [split|]; auto]. destruct HP as (f & -> & ->). cbv zeta.
  assert (HV : relWs (rscatter P1 (xv (length ws * T) f) ws) (rscatter P2 (xv (length ws * T) (fun b => w * f b)) ws)).
  { intros j t Hj Ht. unfold rscatter. rewrite ET. destruct (pos j ws) as [k|] eqn:Ek; [|ring].
    assert (Hk : (k < length ws)%nat).
    { clear - Ek. revert k Ek. induction ws as [|a l IH]; intros k; simpl; [discriminate|]. destruct (j =? a)%nat; [injection 1 as <-; lia|]. destruct (pos j l) as [k'|]; [|discriminate]. injection 1 as <-. specialize (IH k' eq_refl). lia. }
    unfold xv. rewrite !nth_tab by nia. reflexivity. }
  assert (HF := ss_fit SS _ _ ws HV Hin).
  rewrite (srel_obj _ _ _ _ HV HF), (srel_obj W W' Z Z'), ltb_sc by auto. destruct (Rltb _ _); simpl; split; auto; split; auto.
Qed.
Lemma srel_inner tol kmax K acc ws : (forall j, In j ws -> (j < p)%nat) -> forall es W W' Z Z' H H',
  relWs W W' -> RZ Z Z' -> relHs (length ws * T) K H H' ->
  rel_res relsts (rinner P1 (Fin tol) kmax K acc ws es W Z H) (rinner P2 (Fin (d * tol)) (xsc d kmax) K acc ws es W' Z' H').
Proof.
  intros Hin. induction es as [|e es IH]; intros W W' Z Z' H H' HW HZ HH; [split; auto|]. cbn [rinner].
  assert (A := srel_steps ws Hin (W, Z) (W', Z') (conj HW HZ)).
  destruct (fold_left (rstep P1) ws (W, Z)) as [W1 Z1], (fold_left (rstep P2) ws (W', Z')) as [W1' Z1']. destruct A as [HW1 HZ1]. cbn [fst snd] in *.
  apply (rel_bind (relst3s (length ws * T) K)).
  { destruct acc; [apply srel_accel; auto|simpl; split; [split|]; auto]. }
  intros [[W2 Z2] H2] [[W2' Z2'] H2'] [[HW2 HZ2] HH2]. cbn [fst snd] in *. cbv zeta.
  rewrite Ep, (srel_kmax W2 W2' Z2 Z2') by auto. change (Fin (d * tol)) with (xsc d (Fin tol)). rewrite xle_sc by auto.
  replace (xmul (xlit 3 10) (xsc d kmax)) with (xsc d (xmul (xlit 3 10) kmax)) by (symmetry; apply xmul_sc; auto; lra). rewrite xlt_sc by auto.
  destruct (_ && _); [|apply IH; auto]. destruct (length ws =? p)%nat.
  - destruct (xle _ _); [split; auto|apply IH; auto].
  - destruct (xlt _ _); [split; auto|apply IH; auto].
Qed.
Lemma srel_outer tol K acc ws0 me : (ws0 <= p)%nat -> forall it W W' Z Z', relWs W W' -> RZ Z Z' ->
  rel_res relsts (router P1 srt (Fin tol) K acc ws0 me it W Z) (router P2 srt (Fin (d * tol)) K acc ws0 me it W' Z').
Proof.
  intros H0. induction it as [|it IH]; intros W W' Z Z' HW HZ; [split; auto|]. cbn [router]. rewrite Ep.
  rewrite (srel_kmax W W' Z Z' (seq 0 p)) by (auto; intros j Hj; apply in_seq in Hj; lia). change (Fin (d * tol)) with (xsc d (Fin tol)). rewrite xle_sc by auto.
  destruct (xle _ _); [split; auto|]. rewrite (srel_sel W W' Z Z') by auto.
  destruct (select_ok xops srt xr_laws (rnz P1 W) p (tab p (fun j => Fin (rdist P1 W Z j))) ws0 VS H0) as (ws & E & (ND & IN) & _).
  { intros j Hj _. rewrite nth_tab by auto. reflexivity. }
  unfold rsel. rewrite E. cbn [bind].
  apply (rel_bind relsts); [apply srel_inner; auto; intros a c _ _; ring|]. intros [W1 Z1] [W1' Z1'] [A B]. apply IH; auto.
Qed.
Lemma srel_solve tol K acc ws0 me it : rel_res relsts (rsolve P1 srt (Fin tol) K acc ws0 me it) (rsolve P2 srt (Fin (d * tol)) K acc ws0 me it).
Proof.
  unfold rsolve. rewrite Ep. apply srel_outer; [apply Nat.le_min_r| |apply (ss_0 SS)]. intros j t _ _. ring.
Qed.
End Scale.
