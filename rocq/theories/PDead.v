(** Lasso and logistic regression without extrapolation: a NaN column acts like a zero column. *)
From Coq Require Import List ZArith Bool Arith Lia.
From Verif Require Import Ops Arr MUtils MDatasets MDatafits MPenalties
  MCd MHyper MEstimators PBase SpecSolve SpecNan SpecDead PStruct PShape PNull PNan PRuns PPoison PPoisonFit PPoisonEst PNanCol.
Import ListNotations.
Local Open Scope nat_scope.

Lemma upd_self {A} (l : list A) : forall i a, nth_error l i = Some a -> upd l i a = l.
Proof. induction l as [|x l IH]; intros [|i] a H; cbn in *; try discriminate; [congruence|]. rewrite IH; auto. Qed.
Lemma vset_self {A} (l : list A) i a : nth_error l i = Some a -> vset l i a = Ret l.
Proof. intros H. unfold vset. destruct (Nat.ltb_spec i (length l)) as [|Hl]; [rewrite upd_self; auto|]. exfalso. apply nth_error_None in Hl. congruence. Qed.

Section Sim.
Context {F DM D : Type} (o : FOps F) (SP : nan_spreads o) (ZS : zero_spreads o).
Context (dm : DesignMatrix F DM) (df : Datafit F DM D) (srt : list F -> list nat).
Notation pen := (l1_penalty o).
Notation z0 := (f0 o).
Variables (ds ds' : dataset DM F) (d d' : D) (q : l1 F) (dead : list nat) (n p : nat).
Hypothesis (Hq : fisneg o (l1_alpha q) = false).
Hypothesis (Hnf : dm_n_features dm (design_matrix ds) = dm_n_features dm (design_matrix ds')).
Hypothesis (Htg : n_samples (dtargets ds) = n_samples (dtargets ds')).
Hypothesis (Hlip : forall j, ~ In j dead -> vget (df_step_size df d) j = vget (df_step_size df d') j).
Hypothesis (Hgr : forall Xw j, length Xw = n -> ~ In j dead -> df_gradient_j df d ds Xw j = df_gradient_j df d' ds' Xw j).
Hypothesis (Hup : forall Xw u j, length Xw = n -> ~ In j dead -> dm_update dm (design_matrix ds) Xw u j = dm_update dm (design_matrix ds') Xw u j).
Hypothesis (Hupl : forall Xw u j Xw', length Xw = n -> dm_update dm (design_matrix ds) Xw u j = Ret Xw' -> length Xw' = n).
Hypothesis (Hval : forall Xw, df_value df d ds Xw = df_value df d' ds' Xw).
Hypothesis (HlipD : forall j, In j dead -> exists l l', vget (df_step_size df d) j = Ret l /\ vget (df_step_size df d') j = Ret l' /\ zero_or_nan o l /\ zero_or_nan o l').
Hypothesis (HgrD : forall Xw j, length Xw = n -> In j dead -> exists g g', df_gradient_j df d ds Xw j = Ret g /\ df_gradient_j df d' ds' Xw j = Ret g' /\ zero_or_nan o g /\ zero_or_nan o g').

Definition st_off (st : list F * list F) : Prop := (forall j, In j dead -> nth_error (fst st) j = Some z0) /\ length (snd st) = n.

Lemma zn_prox v s : fisnan o v = true -> pen_prox pen q v s = z0.
Proof using SP. apply (l1_prox_nan o SP). Qed.
Lemma dead_step (ds0 : dataset DM F) d0 w Xw j l g : nth_error w j = Some z0 -> vget (df_step_size df d0) j = Ret l -> df_gradient_j df d0 ds0 Xw j = Ret g ->
  zero_or_nan o l -> cd_step o dm df pen ds0 d0 q (w, Xw) j = Ret (w, Xw).
Proof using SP ZS.
  intros Hw El Eg Hl. unfold cd_step. rewrite El. cbn [bind]. destruct Hl as [Hl|Hl]; [rewrite Hl; reflexivity|].
  destruct (feq o l z0); [reflexivity|]. unfold vget at 1. rewrite Hw. cbn [bind]. rewrite Eg. cbn [bind].
  rewrite zn_prox by (apply (s_subr o SP), (s_divr o SP), Hl). rewrite (vset_self _ _ _ Hw). cbn [bind].
  rewrite (proj2 (zs_zero o ZS)). reflexivity.
Qed.
Lemma sim_step st j : st_off st -> cd_step o dm df pen ds d q st j = cd_step o dm df pen ds' d' q st j.
Proof using SP ZS Hlip Hgr Hup HlipD HgrD.
  destruct st as [w Xw]. intros (Hw & HL). cbn [fst snd] in *. destruct (in_dec Nat.eq_dec j dead) as [Hj|Hj].
  - destruct (HlipD j Hj) as (l & l' & E1 & E2 & Z1 & Z2). destruct (HgrD Xw j HL Hj) as (g & g' & E3 & E4 & _).
    rewrite (dead_step ds d w Xw j l g), (dead_step ds' d' w Xw j l' g'); auto.
  - unfold cd_step. rewrite (Hlip j Hj). destruct (vget (df_step_size df d') j) as [l|]; cbn [bind]; [|reflexivity].
    destruct (feq o l z0); [reflexivity|]. destruct (vget w j) as [wj|]; cbn [bind]; [|reflexivity]. rewrite (Hgr Xw j HL Hj).
    destruct (df_gradient_j df d' ds' Xw j) as [g|]; cbn [bind]; [|reflexivity]. destruct (vset _ _ _); cbn [bind]; [|reflexivity].
    destruct (negb _); [|reflexivity]. rewrite (Hup Xw _ j HL Hj). reflexivity.
Qed.
Lemma off_keep st j st' : st_off st -> cd_step o dm df pen ds d q st j = Ret st' -> st_off st'.
Proof using SP ZS Hupl HlipD HgrD.
  destruct st as [w Xw]. intros HO E. destruct HO as (Hw & HL). cbn [fst snd] in *. destruct (in_dec Nat.eq_dec j dead) as [Hj|Hj].
  - destruct (HlipD j Hj) as (l & l' & E1 & E2 & Z1 & Z2). destruct (HgrD Xw j HL Hj) as (g & g' & E3 & E4 & _).
    rewrite (dead_step ds d w Xw j l g) in E; auto. injection E as <-. split; auto.
  - unfold cd_step in E. next E. destruct (feq o x z0); [injection E as <-; split; auto|]. next E. next E. next E. cbv zeta in E.
    assert (HO : forall k, In k dead -> nth_error x2 k = Some z0).
    { intros k Hk. unfold vset in Ex2. destruct (_ <? _); [|discriminate]. injection Ex2 as <-. rewrite upd_other; [auto|congruence]. }
    destruct (negb _); [next E|]; injection E as <-; split; cbn [fst snd]; eauto.
Qed.
Lemma sim_steps ws : forall st, st_off st -> foldM (cd_step o dm df pen ds d q) ws st = foldM (cd_step o dm df pen ds' d' q) ws st /\
  forall st', foldM (cd_step o dm df pen ds d q) ws st = Ret st' -> st_off st'.
Proof using SP ZS Hlip Hgr Hup Hupl HlipD HgrD.
  induction ws as [|j ws IH]; intros st HO; cbn [foldM]; [split; [reflexivity|intros st' E; injection E as <-; exact HO]|].
  rewrite <- (sim_step st j HO). destruct (cd_step o dm df pen ds d q st j) as [st1|] eqn:E; cbn [bind]; [|split; [reflexivity|discriminate]].
  apply IH. exact (off_keep _ _ _ HO E).
Qed.
Lemma zn_score g : zero_or_nan o g -> l1_score o q z0 g = z0.
Proof using ZS Hq. intros H. unfold l1_score. rewrite (proj1 (zs_zero o ZS)). apply (zs_score o ZS); auto. Qed.
Lemma sim_ocv w Xw ws : st_off (w, Xw) -> opt_cond_violation df pen ds w Xw ws d q = opt_cond_violation df pen ds' w Xw ws d' q.
Proof using ZS Hq Hgr HgrD.
  intros (Hw & HL). cbn [fst snd] in *. unfold opt_cond_violation, construct_grad. cbn [pen_subdiff_distance l1_penalty]. unfold scores.
  assert (H : (exists e, mapM (fun j => df_gradient_j df d ds Xw j) ws = Panic e /\ mapM (fun j => df_gradient_j df d' ds' Xw j) ws = Panic e) \/
    exists g g', mapM (fun j => df_gradient_j df d ds Xw j) ws = Ret g /\ mapM (fun j => df_gradient_j df d' ds' Xw j) ws = Ret g' /\
      mapM (fun pr => wj <- vget w (snd pr) ;; Ret (l1_score o q wj (fst pr))) (combine g ws) = mapM (fun pr => wj <- vget w (snd pr) ;; Ret (l1_score o q wj (fst pr))) (combine g' ws)).
  { induction ws as [|j ws IH]; [right; exists [], []; auto|]. cbn [mapM].
    destruct (in_dec Nat.eq_dec j dead) as [Hj|Hj].
    - destruct (HgrD Xw j HL Hj) as (g & g' & E3 & E4 & Z1 & Z2). rewrite E3, E4. cbn [bind].
      destruct IH as [(e & E1 & E2)|(gs & gs' & E1 & E2 & E)]; rewrite E1, E2; cbn [bind]; [left; eauto|right].
      exists (g :: gs), (g' :: gs'). split; [reflexivity|]. split; [reflexivity|]. cbn [combine mapM fst snd]. unfold vget at 1 3. rewrite (Hw j Hj). cbn [bind].
      rewrite !zn_score by auto. rewrite E. reflexivity.
    - rewrite (Hgr Xw j HL Hj). destruct (df_gradient_j df d' ds' Xw j) as [g|e]; cbn [bind]; [|left; eauto].
      destruct IH as [(e & E1 & E2)|(gs & gs' & E1 & E2 & E)]; rewrite E1, E2; cbn [bind]; [left; eauto|right].
      exists (g :: gs), (g :: gs'). split; [reflexivity|]. split; [reflexivity|]. cbn [combine mapM fst snd]. rewrite E. reflexivity. }
  destruct H as [(e & -> & ->)|(g & g' & -> & -> & E)]; [reflexivity|]. cbn [bind]. rewrite E. reflexivity.
Qed.
Lemma sim_inner nf tol km K a v ws wsz es : a = false \/ (forall e, In e es -> e < K) -> forall w Xw m, st_off (w, Xw) ->
  inner_loop o dm df pen ds d q nf tol km K a v ws wsz es w Xw m = inner_loop o dm df pen ds' d' q nf tol km K a v ws wsz es w Xw m /\
  forall st, inner_loop o dm df pen ds d q nf tol km K a v ws wsz es w Xw m = Ret st -> st_off st.
Proof using SP ZS Hq Hnf Htg Hlip Hgr Hup Hupl Hval HlipD HgrD.
  intros Ha. induction es as [|e es IH]; intros w Xw m HO; cbn [inner_loop]; [split; [reflexivity|intros st E; injection E as <-; exact HO]|].
  destruct (sim_steps ws _ HO) as [<- HK]. destruct (foldM (cd_step o dm df pen ds d q) ws (w, Xw)) as [[w1 X1]|] eqn:E1; cbn [bind]; [|split; [reflexivity|discriminate]].
  assert (HO1 := HK _ eq_refl). clear HK.
  assert (HA : exists r : res (mat F), (if a then anderson_accel o dm df pen ds d q m w1 X1 ws e K v else Ret (w1, X1, m)) = bind r (fun m2 => Ret (w1, X1, m2)) /\
     (if a then anderson_accel o dm df pen ds' d' q m w1 X1 ws e K v else Ret (w1, X1, m)) = bind r (fun m2 => Ret (w1, X1, m2))).
  { destruct a; [|exists (Ret m); split; reflexivity]. destruct Ha as [Ha|Ha]; [discriminate|]. assert (e < K) by (apply Ha; left; reflexivity).
    unfold anderson_accel. rewrite <- Hnf. destruct (dm_n_features dm (design_matrix ds)) as [k|x]; [|exists (Panic x); split; reflexivity].
    exists (store_iterate m w1 ws (e mod S K)). cbn [bind]. destruct (store_iterate m w1 ws (e mod S K)); cbn [bind]; [|split; reflexivity].
    rewrite Nat.mod_small by lia. destruct (Nat.eqb_spec e K); [lia|]. split; reflexivity. }
  destruct HA as (r & -> & ->). destruct r as [m2|]; cbn [bind]; [|split; [reflexivity|discriminate]].
  assert (Ha' : a = false \/ (forall e0, In e0 es -> e0 < K)) by (destruct Ha as [Ha|Ha]; [left; exact Ha|right; intros e0 He; apply Ha; right; exact He]).
  destruct (IH Ha' w1 X1 m2 HO1) as [IE IO]. clear IH.
  rewrite <- IE. destruct (_ && _); [|split; [reflexivity|exact IO]]. rewrite <- Hval. destruct (df_value df d ds X1); cbn [bind]; [|split; [reflexivity|discriminate]].
  rewrite <- (sim_ocv w1 X1 ws HO1). destruct (opt_cond_violation df pen ds w1 X1 ws d q) as [[ks kw]|]; cbn [bind]; [|split; [reflexivity|discriminate]].
  assert (HR : forall st, Ret (w1, X1) = Ret st -> st_off st) by (intros st E; injection E as <-; exact HO1).
  destruct (wsz =? nf); [destruct (fle o kw tol)|destruct (flt o kw _)]; (split; [reflexivity|]); first [exact HR|exact IO].
Qed.
Lemma sim_outer nf s me tol K a v it : a = false \/ me <= K -> forall w Xw, st_off (w, Xw) ->
  outer_loop o dm df pen srt ds d q nf s me tol K a v it w Xw = outer_loop o dm df pen srt ds' d' q nf s me tol K a v it w Xw.
Proof using SP ZS Hq Hnf Htg Hlip Hgr Hup Hupl Hval HlipD HgrD.
  intros Ha. assert (Ha' : a = false \/ (forall e, In e (seq 0 me) -> e < K)).
  { destruct Ha as [Ha|Ha]; [left; exact Ha|right; intros e He; apply in_seq in He; lia]. }
  induction it as [|it IH]; intros w Xw HO; cbn [outer_loop]; [reflexivity|].
  rewrite <- (sim_ocv w Xw (seq 0 nf) HO). destruct (opt_cond_violation df pen ds w Xw (seq 0 nf) d q) as [[kkt km]|]; cbn [bind]; [|reflexivity].
  destruct (fle o km tol); [reflexivity|]. destruct (construct_ws_from_kkt o srt kkt w s) as [[ws wsz]|]; cbn [bind]; [|reflexivity].
  destruct (sim_inner nf tol km K a v ws wsz (seq 0 me) Ha' w Xw (mzeros o (S K) wsz) HO) as [<- HK].
  destruct (inner_loop o dm df pen ds d q nf tol km K a v ws wsz (seq 0 me) w Xw (mzeros o (S K) wsz)) as [[w1 X1]|]; cbn [bind]; [|reflexivity].
  apply IH. apply HK. reflexivity.
Qed.
Lemma sim_cd d0 s mi me tol K a v : dm_n_features dm (design_matrix ds) = Ret p -> n_samples (dtargets ds) = n -> (forall j, In j dead -> j < p) ->
  df_initialize df d0 ds = Ret d -> df_initialize df d0 ds' = Ret d' -> a = false \/ me <= K ->
  coordinate_descent o dm df pen srt ds d0 q s mi me tol K a v = coordinate_descent o dm df pen srt ds' d0 q s mi me tol K a v.
Proof using SP ZS Hq Hnf Htg Hlip Hgr Hup Hupl Hval HlipD HgrD.
  intros Hp Hn HD E1 E2 Ha. unfold coordinate_descent. rewrite <- Hnf, Hp, E1, E2, <- Htg, Hn. cbn [bind]. apply (sim_outer _ _ _ _ _ _ _ _ Ha).
  split; [|apply repeat_length]. intros j Hj. cbn [fst]. unfold vzeros. rewrite (nth_error_nth' _ z0) by (rewrite repeat_length; auto). rewrite nth_repeat. reflexivity.
Qed.
End Sim.
