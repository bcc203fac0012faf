(** Convergence of the reference solver: once per two outer iterations the objective drops by a
    fixed amount unless the stopping criterion holds. *)
From Coq Require Import List ZArith Bool Arith Reals Lra Lia.
From Verif Require Import Ops Arr XR SpecPen VecR MUtils MCd PBase RSum SpecLin SpecData PDatafit PCalc PDataProps PAnderson SpecSolve PStruct PNoPanic PLaws PRef PRefPen PSim PSubdiff PSubdiffBlock PSymProps PDescent.
Import ListNotations.
Open Scope R_scope.

Lemma vneg_tab T f : vneg (tab T f) = tab T (fun t => - f t).
Proof. unfold vneg. apply map_tab. Qed.
Lemma vscale_tab T a f : vscale a (tab T f) = tab T (fun t => a * f t).
Proof. unfold vscale. apply map_tab. Qed.
Lemma vminus_tab_r T a b : length a = T -> vminus a (tab T b) = tab T (fun t => nth t a 0 - b t).
Proof. intros Ha. rewrite (tab_nth_len T a 0 Ha) at 1. apply vminus_tab. Qed.
Lemma norm2_minus_sym a b : length a = length b -> norm2 (vminus a b) = norm2 (vminus b a).
Proof.
  intros H. rewrite (tab_nth_len (length a) a 0 eq_refl), (tab_nth_len (length a) b 0 (eq_sym H)), !vminus_tab.
  rewrite (tab_ext _ _ (fun t => -1 * (nth t b 0 - nth t a 0))) by (intros; ring). rewrite <- vscale_tab, norm2_scale. replace (Rabs (-1)) with 1 by (rewrite Rabs_left; lra). ring.
Qed.
Lemma norm2_triang3 a b d : length a = length b -> length b = length d -> norm2 (vminus a d) <= norm2 (vminus a b) + norm2 (vminus b d).
Proof.
  intros H H'. set (m := length a). rewrite (tab_nth_len m a 0 eq_refl), (tab_nth_len m b 0 (eq_sym H)), (tab_nth_len m d 0) by (unfold m; congruence).
  rewrite !vminus_tab. rewrite Rplus_comm.
  set (u := tab m (fun t => nth t a 0 - nth t d 0)). set (v := tab m (fun t => nth t b 0 - nth t d 0)).
  assert (E := norm2_triang u v). unfold u, v in *. rewrite vminus_tab, !tab_length in E. specialize (E eq_refl).
  rewrite (tab_ext m (fun t => nth t a 0 - nth t d 0 - (nth t b 0 - nth t d 0)) (fun t => nth t a 0 - nth t b 0)) in E by (intros; ring). exact E.
Qed.

Section Conv.
Variables (P : problem) (okstep : R -> Prop) (c : R -> R) (srt : list xr -> list nat).
Local Notation p := (pp P). Local Notation T := (pT P). Local Notation n := (pn P). Local Notation X := (pX P).
Hypotheses (VS : valid_sort xops srt) (DT : data_theory P) (PT : pen_theory T (pprox P) (ppv P) okstep c) (ST : score_theory T (ppv P) (pdist P))
  (HL : forall j, (j < p)%nat -> pL P j <> 0 -> okstep (1 / pL P j)).
Variables (H B k0 : R).
Hypotheses (H0 : 0 <= H) (B0 : 0 < B) (Hk0 : 0 < k0)
  (HH : forall Z j k d, (j < p)%nat -> (k < p)%nat -> norm2 (vminus (row P (pg P (shift X Z j d)) k) (row P (pg P Z) k)) <= H * norm2 (tab T d))
  (HK : forall j, (j < p)%nat -> live P j -> k0 <= kap P c j)
  (HBL : forall j, (j < p)%nat -> pL P j <= B)
  (HB3 : forall j g, (j < p)%nat -> live P j -> length g = T ->
     pdist P (repeat 0 T) g <= B * norm2 (pprox P (tab T (fun t => 0 - nth t g 0 / pL P j)) (1 / pL P j))).
Local Notation obj := (obj P). Local Notation moved := (moved P).

(** the score after a proximal step, with the gradient before it *)
Lemma upd_dist W Z j : (j < p)%nat -> live P j ->
  pdist P (rupd P W Z j) (row P (pg P Z) j) <= pL P j * norm2 (vminus (rupd P W Z j) (row P W j)).
Proof.
  intros Hj Hl. set (u := rupd P W Z j). assert (Hu : length u = T) by (apply (upd_len P okstep c); auto).
  pose proof (da_L P DT j) as HL0. assert (HLp : 0 < pL P j) by (unfold live in *; lra). set (l := pL P j) in *.
  destruct (ST u (row P (pg P Z) j) Hu (row_len P _ _)) as [S1 _].
  set (s := tab T (fun t => l * (W j t - nth t u 0) - pg P Z j t)).
  assert (Hs : vsubgrad T (ppv P) u s).
  { split; [apply tab_length|]. exists (l / 2). split; [lra|]. intros x Hx.
    destruct (pt_min _ _ _ _ _ PT (tab T (fun t => W j t - pg P Z j t / l)) (1 / l) (tab_length _ _) (HL j Hj Hl)) as [_ Q].
    specialize (Q x Hx). cbv beta in Q. change (pprox P (tab T (fun t => W j t - pg P Z j t / l)) (1 / l)) with u in Q. pose proof (pt_c _ _ _ _ _ PT _ (HL j Hj Hl)) as Hc. fold l in Hc.
    pose proof (pow2_ge_0 (norm2 (vminus x u))) as Hsq. assert (Q' := Rmult_le_pos _ _ Hc Hsq).
    assert (Q2 : norm2 (vminus u (tab T (fun t => W j t - pg P Z j t / l))) ^ 2 / 2 + 1 / l * ppv P u <= norm2 (vminus x (tab T (fun t => W j t - pg P Z j t / l))) ^ 2 / 2 + 1 / l * ppv P x) by lra.
    clear Q Q' Hc Hsq. unfold s.
    assert (Ev : forall a b, length a = T -> vminus a (tab T b) = tab T (fun t => nth t a 0 - b t)) by (intros a b Ha; rewrite (tab_nth_len T a 0 Ha) at 1; apply vminus_tab).
    replace (vminus x u) with (tab T (fun t => nth t x 0 - nth t u 0)) by (rewrite <- (Ev x (fun t => nth t u 0) Hx), <- (tab_nth_len T u 0 Hu); reflexivity).
    rewrite !Ev, !norm2_tab in Q2 by auto. rewrite !dotp_tab.
    assert (E1 : Sum T (fun t => (nth t x 0 - (W j t - pg P Z j t / l)) ^ 2) =
      Sum T (fun t => (nth t u 0 - (W j t - pg P Z j t / l)) ^ 2) + Sum T (fun t => (nth t x 0 - nth t u 0) * (nth t x 0 - nth t u 0))
      - 2 / l * Sum T (fun t => (l * (W j t - nth t u 0) - pg P Z j t) * (nth t x 0 - nth t u 0))).
    { rewrite <- Sum_scal, <- Sum_plus, <- Sum_minus. apply Sum_ext. intros. field. lra. }
    rewrite E1 in Q2.
    set (A := Sum T (fun t => (nth t u 0 - (W j t - pg P Z j t / l)) ^ 2)) in *. set (D := Sum T (fun t => (nth t x 0 - nth t u 0) * (nth t x 0 - nth t u 0))) in *.
    set (F := Sum T (fun t => (l * (W j t - nth t u 0) - pg P Z j t) * (nth t x 0 - nth t u 0))) in *.
    assert (Q3 : l * (A / 2 + 1 / l * ppv P u) <= l * ((A + D - 2 / l * F) / 2 + 1 / l * ppv P x)) by (apply Rmult_le_compat_l; lra).
    replace (l * (A / 2 + 1 / l * ppv P u)) with (l * A / 2 + ppv P u) in Q3 by (field; lra).
    replace (l * ((A + D - 2 / l * F) / 2 + 1 / l * ppv P x)) with (l * A / 2 + l / 2 * D - F + ppv P x) in Q3 by (field; lra). lra. }
  apply Rle_trans with (1 := S1 s Hs). unfold s, row. replace (vminus u (tab T (W j))) with (vminus (tab T (fun t => nth t u 0)) (tab T (W j))) by (rewrite <- (tab_nth_len T u 0 Hu); reflexivity). rewrite vneg_tab, !vminus_tab.
  rewrite (tab_ext T _ (fun t => l * (nth t u 0 - W j t))) by (intros; ring). rewrite <- vscale_tab, norm2_scale, Rabs_right by lra. lra.
Qed.
(** scores are 1-Lipschitz in the gradient *)
Lemma dist_lip w g g' : length w = T -> length g = T -> length g' = T -> pdist P w g <= pdist P w g' + norm2 (vminus g g').
Proof.
  intros Hw Hg Hg'. destruct (ST w g Hw Hg) as [S1 _]. destruct (ST w g' Hw Hg') as [_ (s & Hs & E)]. rewrite <- E. apply Rle_trans with (1 := S1 s Hs).
  destruct Hs as [Ls _]. assert (N : norm2 (vminus g g') = norm2 (vminus (vneg g) (vneg g'))).
  { rewrite (tab_nth_len T g 0 Hg), (tab_nth_len T g' 0 Hg'), !vneg_tab, !vminus_tab.
    rewrite (tab_ext T (fun t => - nth t g 0 - - nth t g' 0) (fun t => -1 * (nth t g 0 - nth t g' 0))) by (intros; ring).
    rewrite <- vscale_tab, norm2_scale. replace (Rabs (-1)) with 1 by (rewrite Rabs_left; lra). ring. }
  rewrite N, Rplus_comm. apply norm2_triang3; rewrite ?vneg_length; congruence.
Qed.
Lemma dist_dead W Z j : (j < p)%nat -> pL P j = 0 -> row P W j = repeat 0 T -> rdist P W Z j <= 0.
Proof.
  intros Hj E Ew. unfold rdist. rewrite Ew. assert (Eg : row P (pg P Z) j = repeat 0 T) by (apply tab_zero; intros; apply (da_g0 P DT); auto). rewrite Eg.
  destruct (ST (repeat 0 T) (repeat 0 T) (repeat_length _ _) (repeat_length _ _)) as [S1 _].
  assert (Hs : vsubgrad T (ppv P) (repeat 0 T) (repeat 0 T)).
  { split; [apply repeat_length|]. exists 0. split; [lra|]. intros x _. rewrite dotp_0_l, (pt_zero _ _ _ _ _ PT). pose proof (pt_nonneg _ _ _ _ _ PT x). lra. }
  apply Rle_trans with (1 := S1 _ Hs). rewrite <- (tab_zero T (fun _ => 0)) by auto. rewrite vneg_tab, vminus_tab, tab_zero by (intros; ring). rewrite norm2_0. lra.
Qed.

(** *** one pass over the working set *)
Lemma step_grad st j k : (j < p)%nat -> (k < p)%nat ->
  norm2 (vminus (row P (pg P (snd (rstep P st j))) k) (row P (pg P (snd st)) k)) <= H * moved st j.
Proof.
  intros Hj Hk. destruct (Req_dec (pL P j) 0) as [E|E].
  - rewrite moved_dead, step_dead by auto. unfold row. rewrite vminus_tab, tab_zero by (intros; ring). rewrite norm2_0. lra.
  - destruct st as [W Z]. unfold moved. rewrite (step_row P okstep c) by auto. rewrite step_live by auto. cbn [fst snd].
    apply Rle_trans with (1 := HH Z j k _ Hj Hk). right. f_equal. f_equal.
    unfold row. rewrite vminus_tab_r by (apply (upd_len P okstep c); auto). reflexivity.
Qed.
Lemma moved_small st j eta : 0 < eta -> (j < p)%nat -> obj st - obj (rstep P st j) < k0 * eta ^ 2 -> moved st j <= eta.
Proof.
  intros He Hj Hd. destruct (Req_dec (pL P j) 0) as [E|E]; [rewrite moved_dead by auto; lra|].
  pose proof (step_decrease P okstep c DT PT HL st j Hj) as D. pose proof (HK j Hj E) as Hk. pose proof (pow2_ge_0 (moved st j)) as Hm.
  assert (k0 * moved st j ^ 2 <= kap P c j * moved st j ^ 2) by (apply Rmult_le_compat_r; auto).
  assert (moved st j ^ 2 < eta ^ 2) by (apply Rmult_lt_reg_l with k0; auto; lra).
  assert (0 <= moved st j) by apply norm2_pos. nra.
Qed.
Lemma rdist_lip W Z Z' j : rdist P W Z j <= rdist P W Z' j + norm2 (vminus (row P (pg P Z) j) (row P (pg P Z') j)).
Proof. apply dist_lip; apply row_len. Qed.

Lemma steps_small eta ws : 0 < eta -> ws_ok P ws -> forall st, obj st - obj (fold_left (rstep P) ws st) < k0 * eta ^ 2 ->
  let st' := fold_left (rstep P) ws st in
  (forall k, (k < p)%nat -> norm2 (vminus (row P (pg P (snd st')) k) (row P (pg P (snd st)) k)) <= INR (length ws) * (H * eta)) /\
  (forall j, In j ws -> live P j -> rdist P (fst st') (snd st') j <= B * eta + INR (length ws) * (H * eta)) /\
  (forall k, In k ws -> live P k -> row P (fst st) k = repeat 0 T -> rdist P (fst st) (snd st) k <= B * eta + INR (length ws) * (H * eta)).
Proof.
  intros He. induction ws as [|a ws IH]; intros [ND Hws] st Hd st'.
  - simpl in st'. subst st'. split; [|split; intros ? []]. intros k Hk. unfold row. rewrite vminus_tab, tab_zero by (intros; ring). rewrite norm2_0. simpl. lra.
  - simpl in Hd. change st' with (fold_left (rstep P) ws (rstep P st a)). clear st'. set (st1 := rstep P st a) in *.
    assert (Ha : (a < p)%nat) by (apply Hws; left; auto). inversion ND as [|? ? Hna ND']; subst.
    assert (Hws' : forall j, In j ws -> (j < p)%nat) by (intros; apply Hws; right; auto).
    pose proof (steps_desc P okstep c DT PT HL ws Hws' st1) as D1. pose proof (step_desc P okstep c DT PT HL st a Ha) as D2. fold st1 in D2.
    destruct (IH (conj ND' Hws') st1 ltac:(lra)) as (G & I2 & I3). set (st' := fold_left (rstep P) ws st1) in *.
    assert (Hm : moved st a <= eta) by (apply moved_small; auto; fold st1; lra). assert (Hm0 : 0 <= moved st a) by apply norm2_pos.
    assert (G1 : forall k, (k < p)%nat -> norm2 (vminus (row P (pg P (snd st1)) k) (row P (pg P (snd st)) k)) <= H * eta).
    { intros k Hk. apply Rle_trans with (1 := step_grad st a k Ha Hk). apply Rmult_le_compat_l; auto. }
    assert (HE : 0 <= H * eta) by (apply Rmult_le_pos; lra).
    change (length (a :: ws)) with (S (length ws)). rewrite S_INR. split; [|split].
    + intros k Hk. apply Rle_trans with (1 := norm2_triang3 _ (row P (pg P (snd st1)) k) _ ltac:(rewrite !row_len; auto) ltac:(rewrite !row_len; auto)). specialize (G k Hk). specialize (G1 k Hk). lra.
    + intros j [<-|Hj] Hl; [|specialize (I2 j Hj Hl); lra].
      apply Rle_trans with (rdist P (fst st') (snd st1) a + INR (length ws) * (H * eta)); [apply Rle_trans with (1 := rdist_lip _ _ (snd st1) _); specialize (G a Ha); lra|].
      assert (Er : row P (fst st') a = row P (fst st1) a) by (apply tab_ext; intros; unfold st'; apply steps_other; auto).
      unfold rdist. rewrite Er. fold (rdist P (fst st1) (snd st1) a).
      assert (Q : rdist P (fst st1) (snd st1) a <= rdist P (fst st1) (snd st) a + H * eta) by (apply Rle_trans with (1 := rdist_lip _ _ (snd st) _); specialize (G1 a Ha); lra).
      assert (R1 : rdist P (fst st1) (snd st) a <= B * eta); [|lra].
      destruct st as [W Z]. unfold rdist, st1. rewrite (step_row P okstep c) by auto. cbn [snd].
      apply Rle_trans with (1 := upd_dist W Z a Ha Hl). unfold moved in Hm, Hm0. rewrite (step_row P okstep c) in Hm, Hm0 by auto. cbn [fst] in Hm, Hm0.
      apply Rmult_le_compat; auto. apply (da_L P DT).
    + intros k [<-|Hk] Hl Hz.
      * assert (R1 : rdist P (fst st) (snd st) a <= B * eta); [|assert (0 <= INR (length ws) * (H * eta)) by (apply Rmult_le_pos; auto; apply pos_INR); lra].
        destruct st as [W Z]. unfold rdist. cbn [fst snd] in *. rewrite Hz.
        apply Rle_trans with (1 := HB3 a (row P (pg P Z) a) Ha Hl (row_len P _ _)). apply Rmult_le_compat_l; [lra|].
        unfold moved in Hm. rewrite (step_row P okstep c) in Hm by auto. cbn [fst] in Hm. rewrite Hz in Hm.
        assert (Hlen : length (rupd P W Z a) = T) by (apply (upd_len P okstep c); auto).
        replace (tab T (fun t => 0 - nth t (row P (pg P Z) a) 0 / pL P a)) with (tab T (fun t => W a t - pg P Z a t / pL P a)).
        -- fold (rupd P W Z a). rewrite (tab_nth_len T _ 0 Hlen) in Hm. rewrite <- (tab_zero T (fun _ => 0)) in Hm by auto. rewrite vminus_tab in Hm.
           rewrite (tab_ext T _ (fun t => nth t (rupd P W Z a) 0)) in Hm by (intros; ring). rewrite <- (tab_nth_len T _ 0 Hlen) in Hm. exact Hm.
        -- apply tab_ext. intros t Ht. unfold row. rewrite nth_tab by auto. f_equal.
           assert (E := f_equal (fun l => nth t l 0) Hz). unfold row in E. cbv beta in E. rewrite nth_tab in E by auto. rewrite E. apply nth_repeat.
      * assert (Hka : k <> a) by (intros ->; contradiction). assert (Hkp : (k < p)%nat) by auto.
        assert (Er : row P (fst st1) k = row P (fst st) k) by (apply step_other_row; auto).
        specialize (I3 k Hk Hl ltac:(rewrite Er; auto)). unfold rdist in I3. rewrite Er in I3. fold (rdist P (fst st) (snd st1) k) in I3.
        apply Rle_trans with (1 := rdist_lip _ _ (snd st1) _). rewrite norm2_minus_sym by (rewrite !row_len; auto). specialize (G1 k Hkp). lra.
Qed.

(** *** the inner loop: first and last pass *)
(** the epochs after which the inner loop may stop are not extrapolation epochs *)
Definition calm (acc : bool) (K : nat) (es : list nat) : Prop :=
  acc = false \/ forall e, In e es -> ((0 < e)%nat /\ e mod 10 = 0%nat) \/ e = last es 0%nat -> e mod S K <> K.
Lemma inner_first tol kmax K acc ws es e W Z Hs st : ws_ok P ws -> rinner P tol kmax K acc ws (e :: es) W Z Hs = Ret st ->
  obj st <= obj (fold_left (rstep P) ws (W, Z)).
Proof.
  intros Hws E. cbn [rinner] in E. assert (EC := fun st H' => epoch_cases P W Z Hs ws e K acc st H' Hws).
  destruct (fold_left (rstep P) ws (W, Z)) as [W1 Z1]. destruct (if acc then _ else _) as [[[W2 Z2] H2]|] eqn:E2; cbn [bind] in E; [|discriminate].
  destruct (EC _ _ eq_refl) as (O & _). cbv zeta in E.
  assert (HR : st = (W2, Z2) \/ rinner P tol kmax K acc ws es W2 Z2 H2 = Ret st).
  { destruct (_ && _); auto. destruct (length ws =? p)%nat; [destruct (xle _ _)|destruct (xlt _ _)]; auto; injection E as <-; auto. }
  destruct HR as [->|HR]; auto. destruct (inner_inv P okstep c DT PT HL _ _ _ _ _ Hws _ _ _ _ _ HR) as (O' & _). lra.
Qed.
Lemma inner_last tol kmax K acc ws : ws_ok P ws -> forall es W Z Hs st, es <> [] -> calm acc K es -> rinner P tol kmax K acc ws es W Z Hs = Ret st ->
  exists st0, st = fold_left (rstep P) ws st0 /\ obj st0 <= obj (W, Z).
Proof.
  intros Hws. induction es as [|e es IH]; intros W Z Hs st Hne HC E; [contradiction|].
  cbn [rinner] in E. assert (EC := fun st H' => epoch_cases P W Z Hs ws e K acc st H' Hws).
  assert (SD := steps_desc P okstep c DT PT HL ws (proj2 Hws) (W, Z)). remember (fold_left (rstep P) ws (W, Z)) as st1 eqn:E1.
  destruct st1 as [W1 Z1]. destruct (if acc then _ else _) as [[[W2 Z2] H2]|] eqn:E2; cbn [bind] in E; [|discriminate].
  destruct (EC _ _ eq_refl) as (O & _ & _ & HS & _). cbv zeta in E.
  assert (HC' : es <> [] -> calm acc K es).
  { intros Hes. destruct HC as [HC|HC]; [left; auto|right]. intros e' He' [A|A]; apply HC; try (right; exact He'); auto.
    right. destruct es; [contradiction|]. exact A. }
  assert (Hstop : ((0 <? e)%nat && (e mod 10 =? 0)%nat = true \/ es = []) -> (W2, Z2) = fold_left (rstep P) ws (W, Z)).
  { intros A. rewrite <- E1. apply HS. destruct HC as [HC|HC]; [left; auto|right]. apply HC; [left; auto|].
    destruct A as [A|A]; [left|right; subst; reflexivity]. apply andb_prop in A as [A1 A2]. apply Nat.ltb_lt in A1. apply Nat.eqb_eq in A2. auto. }
  assert (HR : ((W2, Z2) = st /\ (W2, Z2) = fold_left (rstep P) ws (W, Z)) \/ (es <> [] /\ rinner P tol kmax K acc ws es W2 Z2 H2 = Ret st)).
  { destruct es as [|e2 es2].
    - left. split; [|apply Hstop; auto]. cbn [rinner] in E. destruct (_ && _); [|injection E; auto]. destruct (length ws =? p)%nat; [destruct (xle _ _)|destruct (xlt _ _)]; injection E; auto.
    - destruct (_ && _) eqn:Eb; [|right; split; [discriminate|auto]].
      destruct (length ws =? p)%nat; [destruct (xle _ _)|destruct (xlt _ _)]; try (right; split; [discriminate|exact E]); left; split; try (injection E; auto); apply Hstop; auto. }
  destruct HR as [[<- HR]|[Hes HR]].
  - exists (W, Z). split; auto. lra.
  - destruct (IH _ _ _ _ Hes (HC' Hes) HR) as (st0 & -> & HO). exists st0. split; auto. lra.
Qed.

(** *** selection *)
Lemma nz_row W j : rnz P W j = false -> row P W j = repeat 0 T.
Proof using.
  unfold rnz. intros E. apply negb_false_iff in E. rb. rewrite <- (row_len P W j). apply norm2_0_inv. auto.
Qed.
Lemma nz_row_true W j : rnz P W j = true -> row P W j <> repeat 0 T.
Proof using. unfold rnz. intros E Hr. rewrite Hr, norm2_0, Reqb_refl in E. discriminate. Qed.
Lemma sel_all W Z ws0 : (ws0 <= p)%nat -> (1 <= ws0)%nat -> exists ws, rsel P srt W Z ws0 = Ret (ws, length ws) /\ ws_ok P ws /\ (ws0 <= length ws)%nat /\
  (forall j, (j < p)%nat -> rnz P W j = true -> In j ws) /\
  (forall j, (j < p)%nat -> rnz P W j = false -> exists k, In k ws /\ rnz P W k = false /\ rdist P W Z j <= rdist P W Z k).
Proof.
  intros H1 H2. set (kkt := tab p (fun j => Fin (rdist P W Z j))).
  assert (HN : forall j, (j < p)%nat -> rnz P W j = false -> fisnan xops (nth j kkt (Fin 0)) = false) by (intros; unfold kkt; rewrite nth_tab by auto; reflexivity).
  destruct (select_ok xops srt xr_laws (rnz P W) p kkt ws0 VS H1 HN) as (ws & E & (ND & IN) & HLen & HO).
  assert (HNZ := select_nonzero xops srt xr_laws (rnz P W) p kkt ws0 ws (length ws) VS H1 HN ltac:(intros; unfold kkt; rewrite nth_tab by auto; reflexivity) E).
  exists ws. split; [exact E|]. split; [split; auto|]. split; [lia|]. split; [exact HNZ|]. intros j Hj Hz.
  assert (A : exists k, In k ws /\ rnz P W k = false).
  { destruct (existsb (fun k => negb (rnz P W k)) ws) eqn:Ex.
    - apply existsb_exists in Ex as (k & Hk & Ek). exists k. split; auto. apply negb_true_iff. auto.
    - exfalso. assert (All : forall k, In k ws -> rnz P W k = true).
      { intros k Hk. destruct (rnz P W k) eqn:Ek; auto. assert (existsb (fun k => negb (rnz P W k)) ws = true) by (apply existsb_exists; exists k; rewrite Ek; auto). congruence. }
      assert (I1 : incl ws (filter (rnz P W) (seq 0 p))) by (intros k Hk; apply filter_In; split; auto; apply in_seq; specialize (IN k Hk); lia).
      assert (C1 := NoDup_incl_length ND I1). fold (count (rnz P W) p) in C1.
      assert (C2 : (count (rnz P W) p < p)%nat).
      { assert (ND2 : NoDup (j :: filter (rnz P W) (seq 0 p))).
        { constructor; [intros Hf; apply filter_In in Hf as [_ Hf]; congruence|apply NoDup_filter, seq_NoDup]. }
        assert (I2 : incl (j :: filter (rnz P W) (seq 0 p)) (seq 0 p)) by (intros x [<-|Hx]; [apply in_seq; lia|apply filter_In in Hx; tauto]).
        assert (C3 := NoDup_incl_length ND2 I2). simpl in C3. rewrite seq_length in C3. fold (count (rnz P W) p) in C3. lia. }
      lia. }
  destruct A as (k & Hk & Ek). destruct (in_dec Nat.eq_dec j ws) as [Hi|Hi]; [exists j; repeat split; auto; lra|].
  exists k. split; auto. split; auto. specialize (HO k j Hk Hj Hi). rewrite Ek, Hz in HO. unfold kkt in HO. rewrite !nth_tab in HO by auto. cbn [flt xops xlt] in HO. rb. lra.
Qed.
Lemma kmax_le W Z t : (xle (rkmax P W Z (seq 0 p)) (Fin t) = true <-> forall j, (j < p)%nat -> rdist P W Z j <= t).
Proof using.
  unfold rkmax. rewrite <- map_map with (g := Fin) (f := fun j => rdist P W Z j).
  destruct (fold_max_reported (map (fun j => rdist P W Z j) (seq 0 p))) as [[El Em]|(r & Em & Hin & Hmax)].
  - rewrite Em. split; auto. intros _ j Hj. apply (f_equal (@length R)) in El. rewrite map_length, seq_length in El. cbn [length] in El. exfalso. clear - Hj El. lia.
  - rewrite Em. cbn [xle]. split.
    + intros Hr j Hj. rb. apply Rle_trans with r; auto. apply Hmax. apply in_map_iff. exists j. split; auto. apply in_seq. lia.
    + intros Ha. apply in_map_iff in Hin as (j & <- & Hj). apply in_seq in Hj. apply Rleb_spec. apply Ha. lia.
Qed.

(** *** outer iterations *)
Section Outer.
Variables (tol : R) (K : nat) (acc : bool) (ws0 me : nat).
Hypotheses (Htol : 0 < tol) (Hws0 : (1 <= ws0 <= p)%nat) (Hme : (1 <= me)%nat) (Hcalm : calm acc K (seq 0 me)) (Hsafe : accel_safe acc K (ws0 * T) me).
Definition eta : R := tol / (B + INR p * H).
Definition delta : R := k0 * eta ^ 2.
Lemma eta_pos : 0 < eta.
Proof. apply Rdiv_lt_0_compat; auto. assert (0 <= INR p * H) by (apply Rmult_le_pos; auto; apply pos_INR). lra. Qed.
Lemma delta_pos : 0 < delta.
Proof. unfold delta. pose proof eta_pos. apply Rmult_lt_0_compat; auto. apply pow_lt; auto. Qed.
Lemma eta_bound m : (m <= p)%nat -> B * eta + INR m * (H * eta) <= tol.
Proof.
  intros Hm. apply le_INR in Hm. pose proof eta_pos as He. assert (0 <= INR p * H) by (apply Rmult_le_pos; auto; apply pos_INR).
  assert (INR m * (H * eta) <= INR p * (H * eta)) by (apply Rmult_le_compat_r; auto; apply Rmult_le_pos; lra).
  assert (E : (B + INR p * H) * eta = tol) by (unfold eta; field; lra). nra.
Qed.
Lemma ws_len ws : ws_ok P ws -> (length ws <= p)%nat.
Proof. intros [ND IN]. rewrite <- (seq_length p 0). apply NoDup_incl_length; auto. intros x Hx. apply in_seq. specialize (IN x Hx). lia. Qed.

(** nonzero rows were settled by the last pass unless that pass still decreased the objective *)
Definition settled (o : R) (st : rmat * rmat) : Prop :=
  dead_zero P (fst st) /\ obj st <= o /\ (o - obj st < delta -> forall j, (j < p)%nat -> rnz P (fst st) j = true -> rdist P (fst st) (snd st) j <= tol).
Definition done (st : rmat * rmat) : Prop := forall j, (j < p)%nat -> rdist P (fst st) (snd st) j <= tol.
Local Notation go := (router P srt (Fin tol) K acc ws0 me).

Lemma dead_row W j : (j < p)%nat -> dead_zero P W -> pL P j = 0 -> row P W j = repeat 0 T.
Proof. intros Hj HD E. apply tab_zero. intros. apply HD; auto. Qed.
Lemma outer_once W Z : ~ done (W, Z) -> dead_zero P W -> exists st', (forall m, go (S m) W Z = go m (fst st') (snd st')) /\ obj st' <= obj (W, Z) /\
  settled (obj (W, Z)) st' /\
  (obj (W, Z) - obj st' < delta -> forall j, (j < p)%nat -> rnz P W j = false -> rdist P W Z j <= tol).
Proof.
  intros Hnd HD. destruct (sel_all W Z ws0 (proj2 Hws0) (proj1 Hws0)) as (ws & Es & Hws & HLn & HNZ & HTop).
  assert (Hno : xle (rkmax P W Z (seq 0 p)) (Fin tol) = false).
  { apply not_true_is_false. intros E. apply Hnd. exact (proj1 (kmax_le W Z tol) E). }
  set (km := rkmax P W Z (seq 0 p)) in *.
  assert (HA : acc = true -> (1 <= K <= length ws * T)%nat \/ forall e, In e (seq 0 me) -> (e mod S K <> K)%nat).
  { intros Ha. destruct Hsafe as [A|[A|A]]; [congruence|left; nia|right]. intros e He. apply in_seq in He. rewrite Nat.mod_small; lia. }
  destruct (rinner_ret P (Fin tol) km K acc ws (seq 0 me) W Z (fun _ _ => 0) HA) as ([W' Z'] & Ei).
  exists (W', Z'). cbn [fst snd]. split.
  { intros m. cbn [router]. fold km. rewrite Hno, Es. cbn [bind]. rewrite Ei. reflexivity. }
  destruct (inner_inv P okstep c DT PT HL _ _ _ _ _ Hws _ _ _ _ _ Ei) as (O & _ & Soff & Dd). split; auto.
  assert (Hwl := ws_len ws Hws). assert (HD' : dead_zero P W') by (apply Dd; auto; intros a k t _ _ _; reflexivity). split.
  - split; [exact HD'|]. split; [exact O|]. cbn [fst snd]. intros Hsm j Hj Hnz.
    assert (Hin : In j ws).
    { destruct (in_dec Nat.eq_dec j ws) as [|Hni]; auto. exfalso. apply nz_row_true in Hnz. apply Hnz. apply tab_zero. intros t Ht. apply (Soff j t Hni).
      destruct (rnz P W j) eqn:E; [exfalso; apply Hni; apply HNZ; auto|]. apply nz_row in E.
      assert (E' := f_equal (fun l => nth t l 0) E). unfold row in E'. cbv beta in E'. rewrite nth_tab in E' by auto. rewrite E'. apply nth_repeat. }
    assert (Hl : live P j) by (intros E; apply nz_row_true in Hnz; apply Hnz; apply dead_row; auto).
    assert (Hne : seq 0 me <> []) by (destruct me; [lia|discriminate]).
    destruct (inner_last (Fin tol) km K acc ws Hws (seq 0 me) W Z (fun _ _ => 0) (W', Z') Hne Hcalm Ei) as (st0 & E0 & HO0).
    destruct (steps_small eta ws eta_pos Hws st0) as (_ & S2 & _); [rewrite <- E0; unfold delta in Hsm; lra|].
    specialize (S2 j Hin Hl). rewrite <- E0 in S2. cbn [fst snd] in S2. apply Rle_trans with (1 := S2). apply eta_bound; auto.
  - intros Hsm j Hj Hz. destruct (HTop j Hj Hz) as (k & Hk & Hkz & Hle). apply Rle_trans with (1 := Hle).
    destruct (Req_dec (pL P k) 0) as [E|E].
    + apply Rle_trans with 0; [|lra]. apply dist_dead; auto. apply (proj2 Hws); auto. apply nz_row; auto.
    + assert (F : obj (W', Z') <= obj (fold_left (rstep P) ws (W, Z))).
      { destruct me as [|m']; [lia|]. cbn [seq] in Ei. eapply inner_first; eauto. }
      destruct (steps_small eta ws eta_pos Hws (W, Z)) as (_ & _ & S3); [unfold delta in Hsm; lra|].
      specialize (S3 k Hk E (nz_row W k Hkz)). cbn [fst snd] in S3. apply Rle_trans with (1 := S3). apply eta_bound; auto.
Qed.
Lemma done_stops st m : done st -> go m (fst st) (snd st) = Ret st.
Proof using.
  intros Hd. destruct st as [W Z]. destruct m; [reflexivity|]. cbn [router fst snd].
  rewrite (proj2 (kmax_le W Z tol)); auto.
Qed.
Lemma done_dec st : done st \/ ~ done st.
Proof using.
  destruct st as [W Z]. destruct (xle (rkmax P W Z (seq 0 p)) (Fin tol)) eqn:E; [left|right]; [intros j Hj; apply (proj1 (kmax_le W Z tol) E j Hj)|].
  intros Hd. rewrite (proj2 (kmax_le W Z tol) Hd) in E. discriminate.
Qed.
Lemma conv_within N : forall o st, settled o st -> obj st + o < INR N * delta ->
  exists m st', (m <= N)%nat /\ done st' /\ forall m', (m <= m')%nat -> go m' (fst st) (snd st) = Ret st'.
Proof.
  induction N as [|N IH]; intros o st Hs Ho.
  - simpl in Ho. pose proof (obj_nonneg P okstep c DT PT st). destruct Hs as (_ & Hs & _). lra.
  - destruct (done_dec st) as [Hd|Hd].
    + exists 0%nat, st. split; [lia|]. split; auto. intros m' _. apply done_stops; auto.
    + destruct st as [W Z]. destruct Hs as (HD & Hmon & Hs). destruct (outer_once W Z Hd HD) as (st1 & Hgo & Hle & Hset & Hz). cbn [fst snd] in *.
      destruct (Rlt_le_dec (o - obj st1) delta) as [Hsm|Hbig].
      * exfalso. apply Hd. intros j Hj. cbn [fst snd].
        destruct (rnz P W j) eqn:E; [apply Hs; auto; lra|apply Hz; auto; lra].
      * destruct (IH (obj (W, Z)) st1 Hset) as (m & st' & Hm & Hd' & Hall).
        -- rewrite S_INR in Ho. lra.
        -- exists (S m), st'. split; [lia|]. split; auto. intros m' Hm'. destruct m' as [|m']; [lia|]. rewrite Hgo. apply Hall. lia.
Qed.
End Outer.
End Conv.
