(** Dead columns: the laws hold for the reals with NaN and for IEEE floats; estimators; examples. *)
From Coq Require Import List ZArith Bool Arith Lia Reals Lra.
From Flocq Require Import Core BinarySingleNaN.
From Verif Require Import Ops Arr MUtils MDatasets MDatafits MPenalties
  MCd MHyper MEstimators XR IEEE PBase PLaws SpecSolve SpecNan SpecDead PNull PNullLaws PRuns PRunsEx PSortNanFit PPoisonEst PNanCol PDead PDeadInst.
Import ListNotations.
Local Open Scope nat_scope.

Lemma xmul0l x : xmul (Fin 0) x = Fin 0 \/ xmul (Fin 0) x = NaN.
Proof.
  destruct x as [r| | |]; simpl; auto; try (left; f_equal; ring); right; unfold inf_of; rewrite !(proj2 (Rltb_false _ _)) by lra; auto.
Qed.
Lemma xr_zero_spreads : zero_spreads xops.
Proof.
  split.
  - intros a b _ HF. apply zn_x. cbn. unfold xdot, xsum. apply xfold_zn; auto. intros x Hx. unfold map2 in Hx. apply in_map_iff in Hx. destruct Hx as ((u & v) & <- & Hin).
    apply in_combine_l in Hin. rewrite Forall_forall in HF. specialize (HF u Hin). cbn [fst snd]. destruct (proj1 (zn_x u) (or_introl HF)) as [->| ->]; [apply xmul0l|right; reflexivity].
  - intros x y Hx Hy. apply zn_x in Hx, Hy. split; apply zn_x; cbn; destruct Hx as [->| ->], Hy as [->| ->]; simpl; auto; left; f_equal; ring.
  - intros x y Hx. apply zn_x in Hx. split; apply zn_x; cbn.
    + destruct Hx as [->| ->]; [apply xmul0l|right; reflexivity].
    + destruct Hx as [->| ->]; [|right; reflexivity]. apply zn_x. exact (sp_zdiv xops xr_spreads y).
  - intros x Hx. apply zn_x in Hx. apply zn_x. cbn. destruct Hx as [->| ->]; simpl; auto. left. f_equal. ring.
  - intros x a Hx Ha. apply zn_x in Hx. cbn in *. apply x_max0. destruct Hx as [->| ->]; [|apply x_nan_sub; reflexivity].
    destruct a as [r| | |]; cbn in *; try reflexivity; try discriminate. rewrite Rabs_R0. rb. apply Rltb_false. lra.
  - cbn. split; [apply Reqb_refl|]. replace (0 - 0)%R with 0%R by ring. apply Reqb_refl.
Qed.
Section I.
Context (prec emax : Z) (Hp : Prec_gt_0 prec) (Hm : Prec_lt_emax prec emax).
Local Notation bf := (binary_float prec emax).
Lemma b_mul0l s (x : bf) : (exists s', bmul prec emax Hp Hm (B754_zero s) x = B754_zero s') \/ bmul prec emax Hp Hm (B754_zero s) x = B754_nan.
Proof. unfold bmul. destruct x as [s'|s'| |s' mm e HH]; simpl; eauto. Qed.
Lemma ieee_zero_spreads m : reduces prec emax Hp Hm m -> zero_spreads (ieee_ops prec emax Hp Hm m).
Proof.
  intros R. destruct R as (_ & _ & RD & _). split.
  - intros a b _ HF. apply (zn_b prec emax Hp Hm m). eapply tree_zn; [apply RD|]. intros x Hx. unfold map2 in Hx. apply in_map_iff in Hx. destruct Hx as ((u & v) & <- & Hin).
    apply in_combine_l in Hin. rewrite Forall_forall in HF. specialize (HF u Hin). cbn [fst snd]. destruct (proj1 (zn_b prec emax Hp Hm m u) (or_introl HF)) as [(s & ->)| ->]; [apply b_mul0l|right; reflexivity].
  - intros x y Hx Hy. apply (zn_b prec emax Hp Hm m) in Hx, Hy. split; apply (zn_b prec emax Hp Hm m); [exact (b_add0 prec emax Hp Hm x y Hx Hy)|].
    cbn. unfold bsub. destruct Hx as [(s & ->)| ->], Hy as [(s' & ->)| ->]; simpl; auto. destruct (Bool.eqb s (negb s')); eauto.
  - intros x y Hx. apply (zn_b prec emax Hp Hm m) in Hx. split; apply (zn_b prec emax Hp Hm m); cbn.
    + destruct Hx as [(s & ->)| ->]; [apply b_mul0l|right; reflexivity].
    + unfold bdiv. destruct Hx as [(s & ->)| ->]; destruct y as [s'|s'| |s' mm e HH]; simpl; eauto.
  - intros x Hx. apply (zn_b prec emax Hp Hm m) in Hx. apply (zn_b prec emax Hp Hm m). cbn. destruct Hx as [(s & ->)| ->]; simpl; eauto.
  - intros x a Hx Ha. apply (zn_b prec emax Hp Hm m) in Hx. cbn in *.
    assert (E : Bltb (bzero prec emax) (bsub prec emax Hp Hm (Babs x) a) = false).
    { destruct Hx as [(s & ->)| ->]; [|apply b_nan_sub; reflexivity]. destruct a as [s'|s'| |s' mm e HH]; cbn in Ha; try subst s'; try reflexivity. }
    unfold bmax. rewrite E. simpl. destruct (is_nan _); reflexivity.
  - split; reflexivity.
Qed.
End I.

Section E.
Context {F : Type} (o : FOps F) (SP : nan_spreads o) (ZS : zero_spreads o) (srt : list F -> list nat).
Lemma lasso_alpha pr q : lasso_check_ref o pr = Ok q -> fisneg o (p_alpha pr) = false.
Proof using. unfold lasso_check_ref. destruct (fisneg o (p_alpha pr)); [discriminate|reflexivity]. Qed.
Lemma fit_same {DM A} chk (fit : params F -> dataset DM F -> res A) pr ds ds' : (forall q, chk pr = Ok q -> q = pr) -> (forall q, chk pr = Ok q -> fit pr ds = fit pr ds') ->
  fit_unchecked chk fit pr ds = fit_unchecked chk fit pr ds'.
Proof using. intros HQ H. unfold fit_unchecked. destruct (chk pr) as [q|e] eqn:E; [|reflexivity]. rewrite (HQ q eq_refl), (H q eq_refl). reflexivity. Qed.
Variables (n p : nat) (D : list nat) (t : targets F).
Hypothesis (Ht : target1_wf n t) (Hlt : forall j, In j D -> j < p).
Lemma dead_lasso pr : p_use_acceleration pr = false \/ p_max_epochs pr <= p_K pr ->
  (forall X X', shaped n p X -> shaped n p X' -> (forall j, In j D -> dead_column o X j /\ dead_column o X' j) -> differ_only D X X' ->
    fit_unchecked (lasso_check_ref o) (lasso_fit_dense o srt) pr (Dataset X t) = fit_unchecked (lasso_check_ref o) (lasso_fit_dense o srt) pr (Dataset X' t)) /\
  (forall X X', csc_wf n p X -> csc_wf n p X' -> (forall j, In j D -> dead_column_csc o X j /\ dead_column_csc o X' j) -> differ_only_csc D X X' ->
    fit_unchecked (lasso_check_ref o) (lasso_fit_sparse o srt) pr (Dataset X t) = fit_unchecked (lasso_check_ref o) (lasso_fit_sparse o srt) pr (Dataset X' t)).
Proof using SP ZS Ht Hlt.
  intros Ha. destruct (chk_same o pr) as (C1 & _). split; intros X X' HX HX' HD HE; apply (fit_same _ _ _ _ _ C1); intros q Hq; apply lasso_alpha in Hq.
  - exact (lasso_dense_same o SP ZS srt n p X X' D t HX HX' Ht Hlt HD HE (L1 (p_alpha pr)) _ _ _ _ _ _ _ _ Hq Ha).
  - exact (lasso_sparse_same o SP ZS srt n p X X' D t HX HX' Ht Hlt HD HE (L1 (p_alpha pr)) _ _ _ _ _ _ _ _ Hq Ha).
Qed.
Lemma dead_log (s : solver F) d q : fisneg o (l1_alpha q) = false -> s_use_acceleration s = false \/ s_max_epochs s <= s_K s ->
  (forall X X', shaped n p X -> shaped n p X' -> (forall j, In j D -> dead_column o X j /\ dead_column o X' j) -> differ_only D X X' ->
    solve o srt (dense_dm o) (log_dense o) (l1_penalty o) s (Dataset X t) d q = solve o srt (dense_dm o) (log_dense o) (l1_penalty o) s (Dataset X' t) d q) /\
  (forall X X', csc_wf n p X -> csc_wf n p X' -> (forall j, In j D -> dead_column_csc o X j /\ dead_column_csc o X' j) -> differ_only_csc D X X' ->
    solve o srt (sparse_dm o) (log_sparse o) (l1_penalty o) s (Dataset X t) d q = solve o srt (sparse_dm o) (log_sparse o) (l1_penalty o) s (Dataset X' t) d q).
Proof using SP ZS Ht Hlt.
  intros Hq Ha. split; intros X X' HX HX' HD HE; unfold solve.
  - exact (log_dense_same o SP ZS srt n p X X' D t HX HX' Ht Hlt HD HE q _ _ _ _ _ _ _ _ Hq Ha).
  - exact (log_sparse_same o SP ZS srt n p X X' D t HX HX' Ht Hlt HD HE q _ _ _ _ _ _ _ _ Hq Ha).
Qed.
End E.

(** *** doubles: the NaN column of [nX] (of [nC]) against a column of zeros *)
Definition zX : mat f64 := Mat 3 2 [[f64_of 1; f64_of 0]; [f64_of 0; f64_of 0]; [f64_of 3; f64_of 0]].
Definition zC : csc f64 := Csc [f64_of 1; f64_of 3; f64_of 0; f64_of 0; f64_of 0] [0; 2; 0; 1; 2]%Z [0; 2; 5]%Z.
Definition npr_off : params f64 := Params (f1 ops64) (f0 ops64) 2 25 10 (flit ops64 1 1000000) 2 false false.
Lemma ex_dead : zero_spreads ops64 /\ shaped 3 2 zX /\ (forall j, In j [1] -> dead_column ops64 nX j /\ dead_column ops64 zX j) /\ differ_only [1] nX zX /\
  csc_wf 3 2 nC /\ csc_wf 3 2 zC /\ (forall j, In j [1] -> dead_column_csc ops64 nC j /\ dead_column_csc ops64 zC j) /\ differ_only_csc [1] nC zC.
Proof.
  split; [apply ieee_zero_spreads; apply seq_reduces|]. split; [repeat split; repeat constructor|].
  split; [|split; [|split; [|split; [|split]]]].
  - intros j [<-|[]]. split; [left; exact (proj2 (proj2 ex_spread))|right]. intros r x [<-|[<-|[<-|[]]]] Hx; injection Hx as <-; reflexivity.
  - intros i r r' j. destruct i as [|[|[|i]]]; cbn [nX zX mrows nth_error]; intros H H' Hj; try (destruct i; discriminate); injection H as <-; injection H' as <-; destruct j as [|[|j]]; try reflexivity; exfalso; apply Hj; left; reflexivity.
  - repeat split; repeat constructor; cbn; lia.
  - repeat split; repeat constructor; cbn; lia.
  - intros j [<-|[]]. split; [left; exact (proj1 ex_csc)|right]. intros lo hi k x H1 H2 Hk. injection H1 as <-. injection H2 as <-.
    assert (k = 2 \/ k = 3 \/ k = 4)%Z as [->|[->| ->]] by lia; intros Hx; injection Hx as <-; reflexivity.
  - split; [reflexivity|]. split; [reflexivity|]. intros j lo hi k Hj H1 H2 Hk. destruct j as [|[|j]].
    + injection H1 as <-. injection H2 as <-. assert (k = 0 \/ k = 1)%Z as [->| ->] by lia; reflexivity.
    + exfalso. apply Hj. left. reflexivity.
    + destruct j as [|j]; cbn in H2; [|destruct j]; discriminate.
Qed.
Lemma ex_dead_fit : match fit_unchecked (lasso_check_ref ops64) (lasso_fit_dense ops64 srt64) npr_off (Dataset nX ry) with
  | Ret (Ok [a; b]) => negb (feq ops64 a (f0 ops64)) && feq ops64 b (f0 ops64) | _ => false end = true.
Proof. vm_compute. reflexivity. Qed.

(** *** doubles: with extrapolation the two designs lead to different models *)
Definition dX (x : f64) : mat f64 := Mat 4 4 [[f64_of 3; f64_of (-2); f64_of (-3); x]; [f64_of 0; f64_of (-3); f64_of 3; f64_of 0]; [f64_of 0; f64_of 0; f64_of 1; f64_of 0]; [f64_of 3; f64_of 3; f64_of (-3); f64_of 0]].
Definition dy : targets f64 := T1 (map f64_of [2; -1; -2; 4]%Z).
Definition npr_on : params f64 := Params (flit ops64 1 100) (f0 ops64) 1 4 10 (flit ops64 1 1000000) 3 true false.
Definition heads_differ {E} (R R' : res (result (list f64) E)) : bool :=
  match R, R' with
  | Ret (Ok (a :: _)), Ret (Ok (b :: _)) => negb (feq ops64 a b) && negb (fisnan ops64 a) && negb (fisnan ops64 b) | _, _ => false end.
Lemma dead_accel_run :
  heads_differ (fit_unchecked (lasso_check_ref ops64) (lasso_fit_dense ops64 srt64) npr_on (Dataset (dX nan64) dy))
               (fit_unchecked (lasso_check_ref ops64) (lasso_fit_dense ops64 srt64) npr_on (Dataset (dX (f0 ops64)) dy)) = true.
Proof. vm_compute. reflexivity. Qed.
Lemma two_heads {E} (R R' : res (result (list f64) E)) : heads_differ R R' = true ->
  exists w w' x x', R = Ret (Ok w) /\ R' = Ret (Ok w') /\ nth_error w 0 = Some x /\ nth_error w' 0 = Some x' /\
    feq ops64 x x' = false /\ fisnan ops64 x = false /\ fisnan ops64 x' = false.
Proof.
  destruct R as [[[|x w]|]|]; try discriminate. destruct R' as [[[|x' w']|]|]; try discriminate. intros H.
  apply andb_true_iff in H as [H H3]. apply andb_true_iff in H as [H1 H2]. apply negb_true_iff in H1, H2, H3.
  exists (x :: w), (x' :: w'), x, x'. repeat split; assumption.
Qed.
Lemma dX_facts : shaped 4 4 (dX nan64) /\ shaped 4 4 (dX (f0 ops64)) /\ target1_wf 4 dy /\ dead_column ops64 (dX nan64) 3 /\
  dead_column ops64 (dX (f0 ops64)) 3 /\ differ_only [3] (dX nan64) (dX (f0 ops64)).
Proof.
  split; [repeat split; repeat constructor|]. split; [repeat split; repeat constructor|]. split; [reflexivity|].
  split; [left; exists [f64_of 3; f64_of (-2); f64_of (-3); nan64], nan64; split; [left; reflexivity|split; vm_compute; reflexivity]|].
  split; [right; intros r u [<-|[<-|[<-|[<-|[]]]]] Hu; injection Hu as <-; vm_compute; reflexivity|].
  intros i r r' j. destruct i as [|[|[|[|i]]]]; cbn [dX mrows nth_error]; intros Hr Hr' Hj; try (destruct i; discriminate); injection Hr as <-; injection Hr' as <-; try reflexivity.
  destruct j as [|[|[|[|j]]]]; try reflexivity. exfalso. apply Hj. left. reflexivity.
Qed.
Lemma dead_accel : exists (X X' : mat f64) (t : targets f64) (pr : params f64) w w' x x',
  shaped 4 4 X /\ shaped 4 4 X' /\ target1_wf 4 t /\ dead_column ops64 X 3 /\ dead_column ops64 X' 3 /\ differ_only [3] X X' /\
  fit_unchecked (lasso_check_ref ops64) (lasso_fit_dense ops64 srt64) pr (Dataset X t) = Ret (Ok w) /\
  fit_unchecked (lasso_check_ref ops64) (lasso_fit_dense ops64 srt64) pr (Dataset X' t) = Ret (Ok w') /\
  nth_error w 0 = Some x /\ nth_error w' 0 = Some x' /\ feq ops64 x x' = false /\ fisnan ops64 x = false /\ fisnan ops64 x' = false.
Proof.
  destruct (two_heads _ _ dead_accel_run) as (w & w' & x & x' & H).
  destruct dX_facts as (H1 & H2 & H3 & H4 & H5 & H6).
  exists (dX nan64), (dX (f0 ops64)), dy, npr_on, w, w', x, x'.
  exact (conj H1 (conj H2 (conj H3 (conj H4 (conj H5 (conj H6 H)))))).
Qed.
