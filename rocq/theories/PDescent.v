(** Every step of the reference solver decreases the objective and keeps the model fit exact. *)
From Coq Require Import List ZArith Bool Arith Reals Lra Lia.
From Verif Require Import Ops Arr XR SpecPen VecR MUtils MCd PRefCD PRefBCD PBase RSum SpecLin SpecData PDatafit PCalc PDataProps PAnderson SpecSolve PStruct PNoPanic PLaws PRef PRefPen PSim PSymProps.
Import ListNotations.
Open Scope R_scope.

Lemma dotp_tab T f g : dotp (tab T f) (tab T g) = Sum T (fun t => f t * g t).
Proof. rewrite <- Rdot_dotp. apply Rdot_tab. Qed.
Lemma vminus_tab T f g : vminus (tab T f) (tab T g) = tab T (fun t => f t - g t).
Proof. unfold tab. generalize (seq 0 T). induction l; simpl; congruence. Qed.
Lemma norm2_tab T f : norm2 (tab T f) ^ 2 = Sum T (fun t => f t ^ 2).
Proof. rewrite norm2_sq, dotp_tab. apply Sum_ext. intros. ring. Qed.
Lemma tab_nth_len {A} T (l : list A) d : length l = T -> l = tab T (fun t => nth t l d).
Proof. intros <-. symmetry. apply tab_nth. Qed.
Lemma tab_zero T f : (forall t, (t < T)%nat -> f t = 0) -> tab T f = repeat 0 T.
Proof.
  intros H. rewrite (tab_ext T f (fun _ => 0)) by auto. clear. unfold tab. induction T as [|T IH]; auto. rewrite seq_S, map_app, IH. simpl. rewrite repeat_cons. reflexivity.
Qed.

(** facts about a loss on which descent rests *)
Record data_theory (P : problem) : Prop := {
  da_f : forall Z Z', (forall i t, (i < pn P)%nat -> (t < pT P)%nat -> Z i t = Z' i t) -> pf P Z = pf P Z';
  da_g : forall Z Z' j, (forall i t, (i < pn P)%nat -> (t < pT P)%nat -> Z i t = Z' i t) -> (j < pp P)%nat -> forall t, (t < pT P)%nat -> pg P Z j t = pg P Z' j t;
  da_L : forall j, 0 <= pL P j;
  da_move : forall Z j d, (j < pp P)%nat ->
    pf P (shift (pX P) Z j d) <= pf P Z + Sum (pT P) (fun t => pg P Z j t * d t) + pL P j / 2 * Sum (pT P) (fun t => d t ^ 2);
  da_g0 : forall Z j t, (j < pp P)%nat -> pL P j = 0 -> pg P Z j t = 0;
  da_nonneg : forall Z, 0 <= pf P Z
}.

Section Descent.
Variables (P : problem) (okstep : R -> Prop) (c : R -> R) (srt : list xr -> list nat).
Local Notation p := (pp P). Local Notation T := (pT P). Local Notation n := (pn P). Local Notation X := (pX P).
Hypotheses (VS : valid_sort xops srt) (DT : data_theory P) (PT : pen_theory T (pprox P) (ppv P) okstep c)
  (HL : forall j, (j < p)%nat -> pL P j <> 0 -> okstep (1 / pL P j)).

Definition obj (st : rmat * rmat) : R := robj P (fst st) (snd st).
Definition fitted (st : rmat * rmat) : Prop := forall i t, (i < n)%nat -> (t < T)%nat -> snd st i t = lin_mt p X (fst st) i t.
(** distance by which a step on [j] moves row [j] *)
Definition moved (st : rmat * rmat) (j : nat) : R := norm2 (vminus (row P (fst (rstep P st j)) j) (row P (fst st) j)).
Definition kap (j : nat) : R := c (1 / pL P j) * pL P j / 2.
Definition live (j : nat) : Prop := pL P j <> 0.

Lemma obj_nonneg st : 0 <= obj st.
Proof. unfold obj, robj. pose proof (da_nonneg P DT (snd st)). assert (0 <= Sum p (fun j => ppv P (row P (fst st) j))) by (apply Sum_nonneg; intros; apply (pt_nonneg _ _ _ _ _ PT)). lra. Qed.
Lemma row_len W j : length (row P W j) = T.
Proof. apply tab_length. Qed.
Lemma upd_len W Z j : (j < p)%nat -> live j -> length (rupd P W Z j) = T.
Proof. intros Hj Hl. apply (pt_min _ _ _ _ _ PT); auto. apply tab_length. Qed.
Lemma step_dead st j : pL P j = 0 -> rstep P st j = st.
Proof. intros H. destruct st as [W Z]. unfold rstep. rewrite H, Reqb_refl. reflexivity. Qed.
Lemma step_live W Z j : live j -> rstep P (W, Z) j =
  (fun i t => if (i =? j)%nat then nth t (rupd P W Z j) 0 else W i t, shift X Z j (fun t => nth t (rupd P W Z j) 0 - W j t)).
Proof. intros H. unfold rstep. destruct (Reqb (pL P j) 0) eqn:E; [rb; contradiction|]. reflexivity. Qed.
Lemma step_other st j i t : i <> j -> fst (rstep P st j) i t = fst st i t.
Proof.
  intros H. destruct (Req_dec (pL P j) 0) as [E|E]; [rewrite step_dead; auto|]. destruct st as [W Z]. rewrite step_live by auto. cbn [fst].
  apply Nat.eqb_neq in H. rewrite H. auto.
Qed.
Lemma step_other_row st j i : i <> j -> row P (fst (rstep P st j)) i = row P (fst st) i.
Proof. intros H. apply tab_ext. intros. apply step_other; auto. Qed.
Lemma step_row W Z j : (j < p)%nat -> live j -> row P (fst (rstep P (W, Z) j)) j = rupd P W Z j.
Proof.
  intros Hj H. rewrite step_live by auto. cbn [fst]. unfold row. rewrite Nat.eqb_refl. symmetry. apply tab_nth_len. apply upd_len; auto.
Qed.
Lemma moved_dead st j : pL P j = 0 -> moved st j = 0.
Proof.
  intros H. unfold moved. rewrite step_dead by auto. unfold row. rewrite vminus_tab, tab_zero by (intros; ring). apply norm2_0.
Qed.

(** the model fit stays exact *)
Lemma lin_change W W' j i t : (j < p)%nat -> (forall k, k <> j -> W' k t = W k t) -> lin_mt p X W' i t = lin_mt p X W i t + (W' j t - W j t) * X i j.
Proof.
  intros Hj H. unfold lin_mt. rewrite (Sum_upd p _ (fun k => X i k * W k t) j Hj); [ring|]. intros k _ Hk. rewrite H; auto.
Qed.
Lemma step_fitted st j : (j < p)%nat -> fitted st -> fitted (rstep P st j).
Proof.
  intros Hj H. destruct (Req_dec (pL P j) 0) as [E|E]; [rewrite step_dead; auto|]. destruct st as [W Z]. intros i t Hi Ht.
  rewrite (lin_change W _ j) by (auto; intros; apply (step_other (W, Z)); auto). rewrite step_live by auto. cbn [fst snd]. unfold shift.
  assert (Hit := H i t Hi Ht). cbn [fst snd] in Hit. rewrite Hit. rewrite Nat.eqb_refl. ring.
Qed.

(** sufficient decrease *)
Lemma step_decrease st j : (j < p)%nat -> obj (rstep P st j) + kap j * moved st j ^ 2 <= obj st.
Proof.
  intros Hj. destruct (Req_dec (pL P j) 0) as [E|E].
  { rewrite moved_dead, step_dead by auto. unfold kap. rewrite E. lra. }
  destruct st as [W Z]. unfold moved. rewrite step_row by auto. set (u := rupd P W Z j). cbn [fst].
  assert (Hu : length u = T) by (apply upd_len; auto). pose proof (da_L P DT j) as HL0. assert (HLp : 0 < pL P j) by (unfold live in *; lra).
  set (d := fun t => nth t u 0 - W j t).
  assert (Ed : vminus u (row P W j) = tab T d) by (rewrite (tab_nth_len T u 0 Hu) at 1; unfold row; apply vminus_tab).
  rewrite Ed, norm2_tab.
  (* the objective after the step *)
  unfold obj. rewrite step_live by auto. cbn [fst snd]. fold u. fold d. unfold robj.
  set (W' := fun i t => if (i =? j)%nat then nth t u 0 else W i t).
  assert (Er : row P W' j = u) by (unfold row, W'; rewrite Nat.eqb_refl; symmetry; apply tab_nth_len; auto).
  rewrite (Sum_upd p (fun k => ppv P (row P W' k)) (fun k => ppv P (row P W k)) j Hj).
  2:{ intros k _ Hk. f_equal. unfold row, W'. apply Nat.eqb_neq in Hk. rewrite Hk. reflexivity. }
  rewrite Er. pose proof (da_move P DT Z j d Hj) as M.
  (* the proximal step *)
  destruct (pt_min _ _ _ _ _ PT (tab T (fun t => W j t - pg P Z j t / pL P j)) (1 / pL P j) (tab_length _ _) (HL j Hj E)) as [_ Q].
  specialize (Q (row P W j) (row_len W j)). cbv beta in Q. fold (rupd P W Z j) in Q. fold u in Q.
  rewrite (tab_nth_len T u 0 Hu) in Q at 1 3. unfold row in Q. rewrite !vminus_tab, !norm2_tab in Q.
  assert (Q1 : Sum T (fun t => (nth t u 0 - (W j t - pg P Z j t / pL P j)) ^ 2) =
    Sum T (fun t => d t ^ 2) + 2 / pL P j * Sum T (fun t => pg P Z j t * d t) + Sum T (fun t => (pg P Z j t / pL P j) ^ 2)).
  { rewrite <- Sum_scal, <- !Sum_plus. apply Sum_ext. intros t _. unfold d. field. lra. }
  assert (Q2 : Sum T (fun t => (W j t - (W j t - pg P Z j t / pL P j)) ^ 2) = Sum T (fun t => (pg P Z j t / pL P j) ^ 2)) by (apply Sum_ext; intros; ring).
  assert (Q3 : Sum T (fun t => (W j t - nth t u 0) ^ 2) = Sum T (fun t => d t ^ 2)) by (apply Sum_ext; intros; unfold d; ring).
  rewrite Q1, Q2, Q3 in Q. fold (row P W j) in Q. unfold kap.
  set (A := Sum T (fun t => d t ^ 2)) in *. set (B := Sum T (fun t => pg P Z j t * d t)) in *. set (C := Sum T (fun t => (pg P Z j t / pL P j) ^ 2)) in *.
  set (l := pL P j) in *. set (cc := c (1 / l)) in *.
  assert (Q4 : l * ((A + 2 / l * B + C) / 2 + 1 / l * ppv P u + cc / 2 * A) <= l * (C / 2 + 1 / l * ppv P (row P W j))) by (apply Rmult_le_compat_l; lra).
  replace (l * ((A + 2 / l * B + C) / 2 + 1 / l * ppv P u + cc / 2 * A)) with (l * A / 2 + B + l * C / 2 + ppv P u + cc * l / 2 * A) in Q4 by (field; lra).
  replace (l * (C / 2 + 1 / l * ppv P (row P W j))) with (l * C / 2 + ppv P (row P W j)) in Q4 by (field; lra).
  lra.
Qed.
Lemma kap_nonneg j : (j < p)%nat -> 0 <= kap j.
Proof.
  intros Hj. unfold kap. destruct (Req_dec (pL P j) 0) as [E|E]; [rewrite E; lra|]. pose proof (pt_c _ _ _ _ _ PT _ (HL j Hj E)). pose proof (da_L P DT j). nra.
Qed.
Lemma step_desc st j : (j < p)%nat -> obj (rstep P st j) <= obj st.
Proof. intros Hj. pose proof (step_decrease st j Hj). pose proof (kap_nonneg j Hj). pose proof (pow2_ge_0 (moved st j)). nra. Qed.

Lemma steps_desc ws : (forall j, In j ws -> (j < p)%nat) -> forall st, obj (fold_left (rstep P) ws st) <= obj st.
Proof.
  induction ws as [|j ws IH]; intros H st; simpl; [lra|]. apply Rle_trans with (obj (rstep P st j)); [apply IH; intros; apply H; right; auto|apply step_desc; apply H; left; auto].
Qed.
Lemma steps_fitted ws : (forall j, In j ws -> (j < p)%nat) -> forall st, fitted st -> fitted (fold_left (rstep P) ws st).
Proof.
  induction ws as [|j ws IH]; intros H st Hf; simpl; auto. apply IH; [intros; apply H; right; auto|]. apply step_fitted; auto. apply H; left; auto.
Qed.
Lemma steps_other ws : forall st i t, ~ In i ws -> fst (fold_left (rstep P) ws st) i t = fst st i t.
Proof.
  induction ws as [|j ws IH]; intros st i t H; simpl; auto. rewrite IH by (intros Hi; apply H; right; auto). apply step_other. intros ->. apply H; left; auto.
Qed.
Lemma steps_dead ws : forall st i t, pL P i = 0 -> fst (fold_left (rstep P) ws st) i t = fst st i t.
Proof.
  induction ws as [|j ws IH]; intros st i t H; simpl; auto. rewrite IH by auto. destruct (Nat.eq_dec i j) as [<-|Hne]; [rewrite step_dead; auto|apply step_other; auto].
Qed.

(** *** extrapolation *)
Lemma scatter_off pt ws i t : ~ In i ws -> rscatter P pt ws i t = 0.
Proof. intros H. unfold rscatter. rewrite pos_notin; auto. Qed.
Lemma scatter_fitted pt ws : NoDup ws -> (forall j, In j ws -> (j < p)%nat) -> fitted (rscatter P pt ws, rfit P (rscatter P pt ws) ws).
Proof.
  intros ND H i t Hi Ht. cbn [fst snd]. unfold rfit, lin_mt. apply (sum_support p (fun j => X i j * rscatter P pt ws j t)); auto.
  intros j _ Hn. rewrite scatter_off by auto. ring.
Qed.
(** outcome of an extrapolation: nothing changes, or a strictly better point supported on [ws] *)
Lemma accel_cases W Z H ws e K st H' : NoDup ws -> (forall j, In j ws -> (j < p)%nat) -> raccel P W Z H ws e K = Ret (st, H') ->
  H' = rstore P H (e mod S K) W ws /\ (st = (W, Z) \/ (e mod S K = K /\ obj st < obj (W, Z) /\ fitted st /\
     exists pt, anderson_point xops (xm (S K) (length ws * T) H') (length ws * T) K = Ret (Some pt) /\ st = (rscatter P pt ws, rfit P (rscatter P pt ws) ws))).
Proof.
  intros ND Hws E. unfold raccel in E. cbv zeta in E. destruct (Nat.eqb_spec (e mod S K) K) as [Ee|Ee].
  2:{ injection E as <- <-. auto. }
  destruct (anderson_point _ _ _ _) as [[pt|]|] eqn:Ea; cbn [bind] in E; [|injection E as <- <-; auto|discriminate].
  destruct (Rltb _ _) eqn:Eo; [|injection E as <- <-; auto]. injection E as <- <-. rb. split; auto. right. split; auto. split; [exact Eo|].
  split; [apply scatter_fitted; auto|]. exists pt. split; auto.
Qed.

(** history rows vanish at the positions of features with a zero column *)
Definition dead_zero (W : rmat) : Prop := forall j t, (j < p)%nat -> (t < T)%nat -> pL P j = 0 -> W j t = 0.
Definition hist_zero (ws : list nat) (H : rmat) : Prop := forall a k t, (k < length ws)%nat -> (t < T)%nat -> pL P (nth k ws 0%nat) = 0 -> H a (k * T + t)%nat = 0.
Lemma nth_concat_rows W ws : forall k t, (k < length ws)%nat -> (t < T)%nat -> nth (k * T + t) (concat (map (row P W) ws)) 0 = W (nth k ws 0%nat) t.
Proof.
  induction ws as [|j ws IH]; intros k t Hk Ht; simpl in Hk; [lia|]. cbn [map concat]. destruct k as [|k].
  - cbn [Nat.mul Nat.add nth]. rewrite app_nth1 by (rewrite row_len; auto). unfold row. apply nth_tab; auto.
  - rewrite app_nth2 by (rewrite row_len; nia). rewrite row_len. replace (S k * T + t - T)%nat with (k * T + t)%nat by nia. rewrite IH by lia. reflexivity.
Qed.
Lemma store_zero H r W ws : (forall j, In j ws -> (j < p)%nat) -> dead_zero W -> hist_zero ws H -> hist_zero ws (rstore P H r W ws).
Proof.
  intros Hws HD HH a k t Hk Ht E. unfold rstore. destruct (a =? r)%nat; [|apply HH; auto]. rewrite nth_concat_rows by auto. apply HD; auto. apply Hws, nth_In; auto.
Qed.
Lemma anderson_some H width K pt : anderson_point xops (xm (S K) width H) width K = Ret (Some pt) -> (1 <= K <= width)%nat.
Proof.
  intros E. destruct (Nat.eq_dec K 0) as [->|H0]; [rewrite anderson_k0 in E by apply xm_shaped; discriminate|].
  destruct (le_lt_dec K width); [lia|]. rewrite anderson_oob in E by (auto; apply xm_shaped). discriminate.
Qed.
Lemma accel_dead W Z H ws e K st H' : NoDup ws -> (forall j, In j ws -> (j < p)%nat) -> raccel P W Z H ws e K = Ret (st, H') ->
  dead_zero W -> hist_zero ws H -> dead_zero (fst st) /\ hist_zero ws H'.
Proof.
  intros ND Hws E HD HH. destruct (accel_cases _ _ _ _ _ _ _ _ ND Hws E) as [-> [->|(_ & _ & _ & pt & Ea & ->)]].
  - split; auto. apply store_zero; auto.
  - assert (HH' := store_zero H (e mod S K) W ws Hws HD HH). split; auto. cbn [fst]. assert (HK := anderson_some _ _ _ _ Ea).
    destruct (anderson_point_res K (length ws * T) (rstore P H (e mod S K) W ws) HK) as [E2|(pt' & E2 & cc & _ & Hpt)]; rewrite Ea in E2; [discriminate|]. injection E2 as <-.
    intros j t Hj Ht Ej. unfold rscatter. destruct (in_dec Nat.eq_dec j ws) as [Hi|Hi]; [|rewrite pos_notin; auto].
    destruct (pos_In j ws Hi) as (k & -> & Hk & En). rewrite Hpt. unfold xv. rewrite nth_tab by nia. cbn [toR].
    apply Sum_zero. intros a _. rewrite HH' by (auto; rewrite En; auto). ring.
Qed.

(** *** one epoch, all epochs *)
Definition ws_ok (ws : list nat) : Prop := NoDup ws /\ forall j, In j ws -> (j < p)%nat.
Lemma epoch_cases W Z H ws e K (acc : bool) st H' : ws_ok ws -> (let '(W1, Z1) := fold_left (rstep P) ws (W, Z) in if acc then raccel P W1 Z1 H ws e K else Ret (W1, Z1, H)) = Ret (st, H') ->
  obj st <= obj (fold_left (rstep P) ws (W, Z)) /\ (fitted (W, Z) -> fitted st) /\ (forall i t, ~ In i ws -> W i t = 0 -> fst st i t = 0) /\
  (acc = false \/ e mod S K <> K -> st = fold_left (rstep P) ws (W, Z)) /\
  (dead_zero W -> hist_zero ws H -> dead_zero (fst st) /\ hist_zero ws H').
Proof.
  intros [ND Hws] E. set (st1 := fold_left (rstep P) ws (W, Z)) in *. assert (F1 := steps_fitted ws Hws (W, Z)). fold st1 in F1.
  assert (O1 := fun i t => steps_other ws (W, Z) i t). fold st1 in O1. cbn [fst] in O1.
  assert (D1 : dead_zero W -> dead_zero (fst st1)) by (intros HD j t Hj Ht Ej; unfold st1; rewrite steps_dead by auto; apply HD; auto).
  destruct st1 as [W1 Z1]. cbn [fst] in *. destruct acc; [|injection E as <- <-; repeat split; auto; try lra; intros i t Hi Hz; rewrite <- Hz; auto].
  destruct (accel_cases _ _ _ _ _ _ _ _ ND Hws E) as [EH [->|(EK & Ho & Hf & pt & Ea & Es)]].
  - split; [lra|]. split; [auto|]. split; [intros i t Hi Hz; cbn [fst]; rewrite <- Hz; auto|]. split; auto. intros HD HH. split; [apply D1; auto|]. rewrite EH. apply store_zero; auto.
  - split; [lra|]. split; auto. split; [intros i t Hi _; rewrite Es; apply scatter_off; auto|]. split; [intros [?|?]; [discriminate|contradiction]|].
    intros HD HH. eapply accel_dead; eauto.
Qed.

Lemma inner_inv tol kmax K acc ws : ws_ok ws -> forall es W Z H st, rinner P tol kmax K acc ws es W Z H = Ret st ->
  obj st <= obj (W, Z) /\ (fitted (W, Z) -> fitted st) /\ (forall i t, ~ In i ws -> W i t = 0 -> fst st i t = 0) /\
  (dead_zero W -> hist_zero ws H -> dead_zero (fst st)).
Proof.
  intros Hws. induction es as [|e es IH]; intros W Z H st E.
  - injection E as <-. repeat split; auto; lra.
  - cbn [rinner] in E. assert (EC := fun st H' => epoch_cases W Z H ws e K acc st H' Hws). assert (SD := steps_desc ws (proj2 Hws) (W, Z)).
    destruct (fold_left (rstep P) ws (W, Z)) as [W1 Z1]. destruct (if acc then _ else _) as [[[W2 Z2] H2]|] eqn:E2; cbn [bind] in E; [|discriminate].
    destruct (EC _ _ eq_refl) as (O & F & S0 & _ & DZ).
    assert (HR : st = (W2, Z2) \/ rinner P tol kmax K acc ws es W2 Z2 H2 = Ret st).
    { cbv zeta in E. destruct (_ && _); auto. destruct (_ =? _)%nat; [destruct (xle _ _)|destruct (xlt _ _)]; auto; injection E as <-; auto. }
    destruct HR as [->|HR].
    + repeat split; auto; try lra. intros HD HH. apply DZ; auto.
    + destruct (IH _ _ _ _ HR) as (O' & F' & S' & DZ'). split; [lra|]. split; auto. split; [intros i t Hi Hz; apply S'; auto; apply (S0 i t); auto|].
      intros HD HH. destruct DZ as [D1 D2]; auto.
Qed.

(** *** outer iterations *)
Lemma router_add tol K acc ws0 me a b W Z : router P srt tol K acc ws0 me (a + b) W Z =
  bind (router P srt tol K acc ws0 me a W Z) (fun st => router P srt tol K acc ws0 me b (fst st) (snd st)).
Proof.
  revert W Z. induction a as [|a IH]; intros W Z; [reflexivity|]. cbn [Nat.add router]. destruct (xle _ _) eqn:E.
  - cbn [bind fst snd]. destruct b; cbn [router]; [reflexivity|]. rewrite E. reflexivity.
  - destruct (rsel _ _ _ _ _) as [[ws sz]|]; cbn [bind]; [|reflexivity]. destruct (rinner _ _ _ _ _ _ _ _ _ _) as [[W' Z']|]; cbn [bind]; [|reflexivity]. apply IH.
Qed.
Lemma router_inv tol K acc ws0 me : (ws0 <= p)%nat -> forall it W Z st, router P srt tol K acc ws0 me it W Z = Ret st ->
  obj st <= obj (W, Z) /\ (fitted (W, Z) -> fitted st) /\ (dead_zero W -> dead_zero (fst st)).
Proof.
  intros H0. induction it as [|it IH]; intros W Z st E; [injection E as <-; repeat split; auto; lra|]. cbn [router] in E.
  destruct (xle _ _); [injection E as <-; repeat split; auto; lra|].
  destruct (rsel_ok P srt VS W Z ws0 H0) as (ws & Es & ND & Hws & HLn). rewrite Es in E. cbn [bind] in E.
  destruct (rinner _ _ _ _ _ _ _ _ _ _) as [[W' Z']|] eqn:Ei; cbn [bind] in E; [|discriminate].
  destruct (inner_inv _ _ _ _ _ (conj ND Hws) _ _ _ _ _ Ei) as (O & F & _ & D). destruct (IH _ _ _ E) as (O' & F' & D').
  split; [lra|]. split; auto. intros HD. apply D'; auto. apply D; auto. intros a k t _ _ _. reflexivity.
Qed.
End Descent.
