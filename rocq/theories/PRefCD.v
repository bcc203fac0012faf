(** The single-task solver on finite data in exact arithmetic is the reference solver. *)
From Coq Require Import List ZArith Bool Arith Reals Lra Lia.
From Verif Require Import Ops Arr XR SpecPen VecR MUtils MDatasets MDatafits MPenalties MCd PBase RSum SpecLin PLin SpecData PData PDatafit PAnderson SpecSolve PStruct PNoPanic PLaws PRef.
Import ListNotations.
Open Scope R_scope.

(** what the solver needs of a penalty *)
Record pen_ok {P} (pen : Penalty xr P) (q : P) (prox : R -> R -> R) (pv : R -> R) (dist : R -> R -> R) (okstep : R -> Prop) : Prop := {
  po_value : forall p w, pen_value pen q (xv p w) = Fin (Sum p (fun j => pv (w j)));
  po_prox : forall v s, okstep s -> pen_prox pen q (Fin v) (Fin s) = Fin (prox v s);
  po_dist : forall p w G ws, (forall j, In j ws -> (j < p)%nat) ->
    pen_subdiff_distance pen q (xv p w) (map (fun j => Fin (G j)) ws) ws
    = Ret (map (fun j => Fin (dist (w j) (G j))) ws, fold_max xops NInf (map (fun j => Fin (dist (w j) (G j))) ws))
}.
Definition single_problem (n p : nat) (X : rmat) (f : rmat -> R) (g : rmat -> nat -> nat -> R) (L : nat -> R)
    (prox : R -> R -> R) (pv : R -> R) (dist : R -> R -> R) : problem :=
  Problem n p 1 X f g L (fun v s => map (fun x => prox x s) v) (fun v => pv (nth 0 v 0)) (fun v h => dist (nth 0 v 0) (nth 0 h 0)).

Lemma bind_map {A B C} (m : res A) (h : A -> B) (k : B -> res C) : bind (bind m (fun a => Ret (h a))) k = bind m (fun a => k (h a)).
Proof. destruct m; reflexivity. Qed.
Lemma feq_fin a b : feq xops (Fin a) (Fin b) = Reqb a b.
Proof. reflexivity. Qed.

Section CD.
Context {DM D P : Type} (dm : DesignMatrix xr DM) (df : Datafit xr DM D) (pen : Penalty xr P) (srt : list xr -> list nat) (VS : valid_sort xops srt).
Variables (n p : nat) (ds : dataset DM xr) (q : P) (d : D) (X : rmat) (f : rmat -> R) (g : rmat -> nat -> nat -> R) (L : nat -> R)
  (prox : R -> R -> R) (pv : R -> R) (dist : R -> R -> R) (okstep : R -> Prop).
Hypotheses (HD : dm_ok dm (design_matrix ds) n p X) (HF : df_ok df d ds n p f g L) (HP : pen_ok pen q prox pv dist okstep)
  (Hn : n_samples (dtargets ds) = n) (HL : forall j, (j < p)%nat -> L j <> 0 -> okstep (1 / L j)).
Local Notation PB := (single_problem n p X f g L prox pv dist).
Definition vW (W : rmat) : list xr := xv p (fun j => W j 0%nat).
Definition vZ (Z : rmat) : list xr := xv n (fun i => Z i 0%nat).
Definition vst (st : rmat * rmat) : list xr * list xr := (vW (fst st), vZ (snd st)).

Lemma row1 W j : row PB W j = [W j 0%nat].
Proof. reflexivity. Qed.
Lemma step_ref st j : (j < p)%nat -> cd_step xops dm df pen ds d q (vst st) j = Ret (vst (rstep PB st j)).
Proof.
  intros Hj. destruct st as [W Z]. unfold cd_step, vst, vW, vZ. cbn [fst snd]. rewrite (df_ok_step _ _ _ _ _ _ _ _ HF). rewrite vget_xv by auto. cbn [bind].
  change (f0 xops) with (Fin 0). rewrite feq_fin. unfold rstep, PB. cbn [pL]. destruct (Reqb (L j) 0) eqn:E; [reflexivity|]. rb.
  rewrite vget_xv by auto. cbn [bind]. rewrite (df_ok_grad _ _ _ _ _ _ _ _ HF) by auto. cbn [bind]. change (f1 xops) with (Fin 1).
  change (fdiv xops) with xdiv. change (fsub xops) with xsub. rewrite !xdiv_fin by auto. cbn [xsub]. rewrite (po_prox _ _ _ _ _ _ HP) by auto.
  rewrite vset_xv by auto. cbn [bind]. cbv zeta. cbn [xsub]. rewrite feq_fin. cbn [fst snd].
  unfold rupd. cbn [pprox pT pg pL pX]. cbn [tab seq map].
  set (u := prox (W j 0%nat - g Z j 0%nat / L j) (1 / L j)). destruct (Reqb (u - W j 0%nat) 0) eqn:E2; cbn [negb].
  - rb. f_equal. f_equal.
    apply xv_ext. intros i _. simpl. rewrite E2. ring.
  - rewrite (dm_ok_upd _ _ _ _ _ HD) by auto. cbn [bind]. f_equal.
Qed.
Lemma steps_ref ws st : (forall j, In j ws -> (j < p)%nat) -> foldM (cd_step xops dm df pen ds d q) ws (vst st) = Ret (vst (fold_left (rstep PB) ws st)).
Proof. intros H. apply (foldM_rep vst). intros; apply step_ref; auto. Qed.

Lemma ocv_ref W Z ws : (forall j, In j ws -> (j < p)%nat) ->
  opt_cond_violation df pen ds (vW W) (vZ Z) ws d q = Ret (map (fun j => Fin (rdist PB W Z j)) ws, rkmax PB W Z ws).
Proof.
  intros H. unfold opt_cond_violation, construct_grad.
  rewrite (mapM_ret _ (fun j => Fin (g Z j 0%nat))) by (intros; apply (df_ok_grad _ _ _ _ _ _ _ _ HF); auto). cbn [bind].
  unfold vW. rewrite (po_dist _ _ _ _ _ _ HP) by auto. reflexivity.
Qed.
Lemma obj_ref W Z : fadd xops (Fin (f Z)) (pen_value pen q (vW W)) = Fin (robj PB W Z).
Proof. unfold vW. rewrite (po_value _ _ _ _ _ _ HP). reflexivity. Qed.

Lemma store_ref K H W ws r : (r <= K)%nat -> (forall j, In j ws -> (j < p)%nat) ->
  store_iterate (xm (S K) (length ws) H) (vW W) ws r = Ret (xm (S K) (length ws) (rstore PB H r W ws)).
Proof.
  intros Hr Hin. unfold store_iterate.
  assert (A : forall m, (m <= length ws)%nat ->
    foldM (fun m ij => wj <- vget (vW W) (snd ij) ;; mset m r (fst ij) wj) (map (fun i => (i, nth i ws 0%nat)) (seq 0 m)) (xm (S K) (length ws) H)
    = Ret (xm (S K) (length ws) (fun a c => if (a =? r)%nat && (c <? m)%nat then W (nth c ws 0%nat) 0%nat else H a c))).
  { induction m as [|m IH]; intros Hm.
    - simpl. f_equal. apply xm_ext. intros. rewrite andb_false_r. auto.
    - rewrite seq_S, map_app, foldM_app, IH by lia. cbn [bind map foldM fst snd].
      unfold vW. rewrite vget_xv by (apply Hin, nth_In; lia). cbn [bind]. rewrite mset_xm by lia. cbn [bind]. f_equal. apply xm_ext. intros a c _ _.
      destruct (Nat.eqb_spec a r); simpl; auto. destruct (Nat.eqb_spec c m).
      + subst. destruct (Nat.ltb_spec m (S m)); [auto|lia].
      + destruct (Nat.ltb_spec c m), (Nat.ltb_spec c (S m)); auto; lia. }
  rewrite (combine_seq ws 0%nat). cbn [Nat.add]. rewrite A by lia. f_equal. apply xm_ext. intros a c _ Hc. unfold rstore.
  destruct (Nat.eqb_spec a r); simpl; auto. destruct (Nat.ltb_spec c (length ws)); [|lia].
  assert (B : concat (map (row PB W) ws) = map (fun j => W j 0%nat) ws).
  { clear. induction ws as [|j ws IH]; simpl; auto. rewrite IH. reflexivity. }
  rewrite B. rewrite (nth_indep _ 0 (W 0%nat 0%nat)) by (rewrite map_length; auto). rewrite (map_nth (fun j => W j 0%nat)). reflexivity.
Qed.
Lemma scatter_ref pt ws : NoDup ws -> (forall j, In j ws -> (j < p)%nat) ->
  scatter xops p (xv (length ws) pt) ws = Ret (vW (rscatter PB (xv (length ws) pt) ws)).
Proof.
  intros ND Hin. unfold scatter. rewrite vzeros_xv.
  assert (A : forall l (v : list R) w, NoDup l -> (forall j, In j l -> (j < p)%nat) -> length v = length l ->
    foldM (fun w_acc pj => vset w_acc (snd pj) (fst pj)) (combine (map Fin v) l) (xv p w)
    = Ret (xv p (fun i => match pos i l with Some k => nth k v 0 | None => w i end))).
  { induction l as [|a l IH]; intros v w N1 H1 HLv; destruct v as [|x v]; try discriminate; simpl; auto.
    rewrite vset_xv by (apply H1; left; auto). cbn [bind]. inversion N1; subst. rewrite IH; auto.
    - f_equal. apply xv_ext. intros i Hi. destruct (Nat.eqb_spec i a) as [->|].
      + rewrite pos_notin by auto. auto.
      + destruct (pos i l); auto.
    - intros; apply H1; right; auto. }
  replace (xv (length ws) pt) with (map Fin (tab (length ws) pt)) by apply map_tab. rewrite A; auto; [|apply tab_length].
  f_equal. unfold vW. apply xv_ext. intros i Hi. unfold rscatter. cbn [pT PB single_problem].
  destruct (in_dec Nat.eq_dec i ws) as [Hw|Hw].
  - destruct (pos_In i ws Hw) as (k & -> & Hk & _). rewrite map_tab, !nth_tab by lia. simpl. do 2 f_equal. lia.
  - rewrite pos_notin by auto. auto.
Qed.
Definition vst3 K w (st : rmat * rmat * rmat) : list xr * list xr * mat xr := (vW (fst (fst st)), vZ (snd (fst st)), xm (S K) w (snd st)).
Lemma xm_shaped r c M : shaped r c (xm r c M).
Proof. apply tabm_shaped. Qed.
Lemma accel_ref W Z H ws e K v : NoDup ws -> (forall j, In j ws -> (j < p)%nat) ->
  anderson_accel xops dm df pen ds d q (xm (S K) (length ws) H) (vW W) (vZ Z) ws e K v
  = bind (raccel PB W Z H ws e K) (fun st => Ret (vst3 K (length ws) st)).
Proof.
  intros ND Hin. unfold anderson_accel, raccel. rewrite (dm_ok_nf _ _ _ _ _ HD). cbn [bind].
  assert (Hm : (e mod S K <= K)%nat) by (pose proof (Nat.mod_upper_bound e (S K)); lia).
  rewrite store_ref by auto. cbn [bind]. destruct (e mod S K =? K)%nat eqn:E; [|reflexivity].
  cbn [pT PB single_problem]. rewrite Nat.mul_1_r. set (H' := rstore PB H (e mod S K) W ws).
  destruct (Nat.eq_dec K 0) as [->|HK0]; [rewrite (anderson_k0 xops) by apply xm_shaped; reflexivity|].
  destruct (Nat.lt_ge_cases (length ws) K) as [HK|HK]; [rewrite (anderson_oob xops) by (auto; apply xm_shaped); reflexivity|].
  destruct (anderson_point_res K (length ws) H') as [Ea|(pt & Ea & c & Hc & Ept)]; [lia|rewrite Ea; reflexivity|].
  rewrite Ea. cbn [bind]. rewrite Ept. rewrite scatter_ref by auto. cbn [bind]. rewrite Hn.
  set (V := rscatter _ _ _). unfold vW at 1. rewrite (dm_ok_ext _ _ _ _ _ HD) by auto. cbn [bind].
  fold (vW V). unfold vZ at 1. rewrite (df_ok_value _ _ _ _ _ _ _ _ HF). cbn [bind].
  change (xv n (fun i => Rsum (map (fun j => X i j * V j 0%nat) ws))) with (xv n (fun i => rfit PB V ws i 0%nat)).
  rewrite (df_ok_value _ _ _ _ _ _ _ _ HF). cbn [bind]. cbv zeta. rewrite !obj_ref. cbn [flt xops xlt].
  destruct (Rltb _ _); reflexivity.
Qed.
Lemma inner_ref tol kmax K acc v ws : NoDup ws -> (forall j, In j ws -> (j < p)%nat) -> forall es W Z H,
  inner_loop xops dm df pen ds d q p tol kmax K acc v ws (length ws) es (vW W) (vZ Z) (xm (S K) (length ws) H)
  = bind (rinner PB tol kmax K acc ws es W Z H) (fun st => Ret (vst st)).
Proof.
  intros ND Hin. induction es as [|e es IH]; intros W Z H; [reflexivity|]. cbn [inner_loop rinner].
  change (vW W, vZ Z) with (vst (W, Z)). rewrite steps_ref by auto. cbn [bind].
  destruct (fold_left (rstep PB) ws (W, Z)) as [W1 Z1]. cbn [vst fst snd].
  set (m := if acc then raccel PB W1 Z1 H ws e K else Ret (W1, Z1, H)).
  transitivity (bind (bind m (fun st => Ret (vst3 K (length ws) st))) (fun '(w, Xw, last_K_w) =>
      let continue := inner_loop xops dm df pen ds d q p tol kmax K acc v ws (length ws) es w Xw last_K_w in
      if ((0 <? e) && (e mod 10 =? 0))%nat then
        v <- df_value df d ds Xw ;;
        '(_, kkt_ws_max) <- opt_cond_violation df pen ds w Xw ws d q ;;
        if (length ws =? p)%nat then if fle xops kkt_ws_max tol then Ret (w, Xw) else continue
        else if flt xops kkt_ws_max (fmul xops (flit xops 3 10) kmax) then Ret (w, Xw) else continue
      else continue)).
  { unfold m. destruct acc; [rewrite accel_ref by auto; reflexivity|reflexivity]. }
  rewrite bind_map, bind_assoc. apply bind_eq; auto. intros [[W2 Z2] H2] _. cbn [vst3 fst snd]. cbv zeta. rewrite IH.
  destruct (_ && _); [|reflexivity]. unfold vZ at 1. rewrite (df_ok_value _ _ _ _ _ _ _ _ HF). cbn [bind]. rewrite ocv_ref by auto. cbn [bind].
  cbn [fle flt fmul flit xops]. cbn [pp single_problem]. destruct (length ws =? p)%nat.
  - destruct (xle _ _); reflexivity.
  - destruct (xlt _ _); reflexivity.
Qed.
Lemma sel_ref W Z ws0 : (ws0 <= p)%nat -> exists ws, rsel PB srt W Z ws0 = Ret (ws, length ws) /\ NoDup ws /\ (forall j, In j ws -> (j < p)%nat) /\
  construct_ws_from_kkt xops srt (map (fun j => Fin (rdist PB W Z j)) (seq 0 p)) (vW W) ws0 = Ret (ws, length ws).
Proof.
  intros H0. unfold rsel. destruct (select_ok xops srt xr_laws (rnz PB W) p (tab p (fun j => Fin (rdist PB W Z j))) ws0 VS H0) as (ws & E & (ND & IN) & _).
  { intros j Hj _. rewrite nth_tab by auto. reflexivity. }
  exists ws. cbn [pp single_problem]. split; auto. split; auto. split; auto. rewrite construct_ws_select.
  - unfold vW. rewrite xv_length. rewrite <- E. apply select_ext; [|reflexivity]. intros j Hj. unfold nzv, rnz. rewrite row1. unfold xv. rewrite nth_tab by auto.
    change (f0 xops) with (Fin 0). rewrite feq_fin. f_equal. destruct (Reqb (W j 0%nat) 0) eqn:B; rb; [rewrite B|].
    + symmetry. apply Reqb_spec. apply (norm2_0 1).
    + symmetry. apply Reqb_false. intros N. apply B. apply norm2_0_inv in N. injection N. auto.
  - rewrite map_length, seq_length. unfold vW. rewrite xv_length. auto.
Qed.
Lemma outer_ref tol K acc v ws0 me : (ws0 <= p)%nat -> forall it W Z,
  outer_loop xops dm df pen srt ds d q p ws0 me tol K acc v it (vW W) (vZ Z)
  = bind (router PB srt tol K acc ws0 me it W Z) (fun st => Ret (vW (fst st))).
Proof.
  intros H0. induction it as [|it IH]; intros W Z; [reflexivity|]. cbn [outer_loop router].
  rewrite ocv_ref by (intros j Hj; apply in_seq in Hj; lia). cbn [bind]. cbn [fle xops]. change (pp PB) with p.
  destruct (xle _ _); [reflexivity|]. destruct (sel_ref W Z ws0 H0) as (ws & E & ND & IN & Ec). rewrite Ec, E. cbn [bind].
  rewrite mzeros_xm. rewrite (inner_ref tol (rkmax PB W Z (seq 0 p)) K acc v ws ND IN (seq 0 me) W Z (fun _ _ => 0)).
  rewrite bind_map, bind_assoc. apply bind_eq; auto. intros [W' Z'] _. cbn [vst fst snd]. apply IH.
Qed.
Lemma cd_ref d0 tol K acc v ws0 me it : df_initialize df d0 ds = Ret d ->
  coordinate_descent xops dm df pen srt ds d0 q ws0 it me tol K acc v = bind (rsolve PB srt tol K acc ws0 me it) (fun st => Ret (vW (fst st))).
Proof.
  intros Hd. unfold coordinate_descent, rsolve. rewrite (dm_ok_nf _ _ _ _ _ HD), Hn, Hd. cbn [bind]. rewrite !vzeros_xv. change (pp PB) with p.
  replace (if (p <? ws0)%nat then p else ws0) with (Nat.min ws0 p) by (destruct (Nat.ltb_spec p ws0); lia).
  apply (outer_ref tol K acc v (Nat.min ws0 p) me (Nat.le_min_r _ _) it (fun _ _ => 0) (fun _ _ => 0)).
Qed.
End CD.
