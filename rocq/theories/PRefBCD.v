(** The multi-task solver on finite data in exact arithmetic is the reference solver. *)
From Coq Require Import List ZArith Bool Arith Reals Lra Lia.
From Verif Require Import Ops Arr XR SpecPen VecR MUtils MDatasets MDatafitsMT MBlockPenalties MCd MBcd PSubdiffBlock PBase RSum SpecLin PLin SpecData PData PDatafit PAnderson SpecSolve PStruct PNoPanic PLaws PRef PRefCD.
Import ListNotations.
Open Scope R_scope.

Record bpen_ok {P} (T : nat) (pen : PenaltyMT xr P) (q : P) (prox : list R -> R -> list R) (pv : list R -> R) (dist : list R -> list R -> R) (okstep : R -> Prop) : Prop := {
  bo_value : forall p W, bpen_value pen q (xm p T W) = Fin (Sum p (fun j => pv (tab T (W j))));
  bo_prox : forall v s, length v = T -> okstep s -> bpen_prox pen q (map Fin v) (Fin s) = map Fin (prox v s) /\ length (prox v s) = T;
  bo_dist : forall p W G ws, (forall j, In j ws -> (j < p)%nat) ->
    bpen_subdiff_distance pen q (xm p T W) (Mat (length ws) T (map (fun j => xv T (G j)) ws)) ws
    = Ret (map (fun j => Fin (dist (tab T (W j)) (tab T (G j)))) ws, fold_max xops NInf (map (fun j => Fin (dist (tab T (W j)) (tab T (G j)))) ws))
}.

Section BCD.
Context {DM D P : Type} (dm : DesignMatrix xr DM) (df : DatafitMT xr DM D) (pen : PenaltyMT xr P) (srt : list xr -> list nat) (VS : valid_sort xops srt).
Variables (n p T : nat) (ds : dataset DM xr) (q : P) (d : D) (X : rmat) (f : rmat -> R) (g : rmat -> nat -> nat -> R) (L : nat -> R)
  (prox : list R -> R -> list R) (pv : list R -> R) (dist : list R -> list R -> R) (okstep : R -> Prop).
Hypotheses (HD : dm_ok dm (design_matrix ds) n p X) (HF : dfm_ok df d ds n p T f g L) (HP : bpen_ok T pen q prox pv dist okstep)
  (Hn : n_samples (dtargets ds) = n) (HT : n_tasks (dtargets ds) = T) (HL : forall j, (j < p)%nat -> L j <> 0 -> okstep (1 / L j)).
Local Notation PB := (Problem n p T X f g L prox pv dist).
Definition mst (st : rmat * rmat) : mat xr * mat xr := (xm p T (fst st), xm n T (snd st)).

Lemma mapFin_xv T' (v : nat -> R) : map Fin (tab T' v) = xv T' v.
Proof. apply map_tab. Qed.
Lemma anynz_xv v : any_nonzero xops (xv T v) = negb (Reqb (norm2 (tab T v)) 0).
Proof. rewrite <- mapFin_xv. apply any_nonzero_fin. Qed.
Lemma bstep_ref st j : (j < p)%nat -> bcd_step xops dm df pen ds d q (mst st) j = Ret (mst (rstep PB st j)).
Proof.
  intros Hj. destruct st as [W Z]. unfold bcd_step, mst. cbn [fst snd]. rewrite (dfm_ok_step _ _ _ _ _ _ _ _ _ HF). rewrite vget_xv by auto. cbn [bind].
  change (f0 xops) with (Fin 0). rewrite feq_fin. unfold rstep. cbn [pL]. destruct (Reqb (L j) 0) eqn:E; [reflexivity|]. rb.
  unfold xm at 1. rewrite mrow_tabm by auto. cbn [bind]. rewrite (dfm_ok_grad _ _ _ _ _ _ _ _ _ HF) by auto. cbn [bind].
  unfold vsub, vbin, xv at 1. rewrite map_length, !tab_length, Nat.eqb_refl.
  replace (map (fun g0 => fdiv xops g0 (Fin (L j))) (xv T (g Z j))) with (xv T (fun t => g Z j t / L j)).
  2:{ unfold xv. rewrite map_tab. apply tab_ext. intros. cbn [fdiv xops]. rewrite xdiv_fin by auto. reflexivity. }
  unfold xv. rewrite map2_tab. cbn [bind fsub xops xsub]. change (f1 xops) with (Fin 1). cbn [fdiv xops]. rewrite xdiv_fin by auto.
  change (tab T (fun i => Fin (W j i - g Z j i / L j))) with (xv T (fun i => W j i - g Z j i / L j)). rewrite <- mapFin_xv.
  destruct (bo_prox _ _ _ _ _ _ _ HP (tab T (fun t => W j t - g Z j t / L j)) (1 / L j)) as [E1 E2]; auto; [apply tab_length|].
  rewrite E1. unfold rupd. cbn [pprox pT pg pL pX]. set (u := prox _ (1 / L j)) in *.
  assert (Eu : map Fin u = xv T (fun t => nth t u 0)). { rewrite <- mapFin_xv. rewrite <- E2, tab_nth. auto. }
  rewrite Eu. rewrite HT.
  assert (A : forall m, (m <= T)%nat -> foldM (fun W0 t => u0 <- vget (xv T (fun t => nth t u 0)) t ;; mset W0 j t u0) (seq 0 m) (xm p T W)
    = Ret (xm p T (fun a b => if (a =? j)%nat && (b <? m)%nat then nth b u 0 else W a b))).
  { induction m as [|m IH]; intros Hm.
    - simpl. f_equal. apply xm_ext. intros. rewrite andb_false_r. auto.
    - rewrite seq_S, foldM_app, IH by lia. cbn [bind foldM]. rewrite vget_xv by lia. cbn [bind]. rewrite mset_xm by lia. cbn [bind]. f_equal.
      apply xm_ext. intros a c _ _. destruct (Nat.eqb_spec a j); simpl; auto. destruct (Nat.eqb_spec c m).
      + subst. destruct (Nat.ltb_spec m (S m)); [auto|lia].
      + destruct (Nat.ltb_spec c m), (Nat.ltb_spec c (S m)); auto; lia. }
  rewrite A by lia. cbn [bind].
  assert (EW : xm p T (fun a b => if (a =? j)%nat && (b <? T)%nat then nth b u 0 else W a b) = xm p T (fun i t => if (i =? j)%nat then nth t u 0 else W i t)).
  { apply xm_ext. intros a b _ Hb. destruct (Nat.ltb_spec b T); [|lia]. rewrite andb_true_r. auto. }
  rewrite EW. 
  replace (combine (seq 0 T) (tab T (fun j0 => Fin (W j j0)))) with (tab T (fun t => (t, Fin (W j t)))).
  2:{ unfold tab. rewrite combine_map_r. reflexivity. }
  rewrite (mapM_tab _ T _ (fun t => Fin (nth t u 0 - W j t))).
  2:{ intros t Ht. cbn [fst snd]. rewrite mget_xm by auto. rewrite Nat.eqb_refl. reflexivity. }
  cbn [bind]. change (tab T (fun t => Fin (nth t u 0 - W j t))) with (xv T (fun t => nth t u 0 - W j t)). rewrite anynz_xv.
  destruct (Reqb (norm2 (tab T (fun t => nth t u 0 - W j t))) 0) eqn:E3; cbn [negb]; rb.
  - f_equal. f_equal. apply xm_ext. intros i t _ Ht. cbn [fst snd]. apply norm2_0_inv in E3. rewrite tab_length, repeat_tab in E3.
    assert (E4 := tab_inj T _ _ E3 t Ht). cbv beta in E4. rewrite E4. ring.
  - rewrite (dm_ok_upd_mt _ _ _ _ _ HD) by auto. reflexivity.
Qed.
Lemma bsteps_ref ws st : (forall j, In j ws -> (j < p)%nat) -> foldM (bcd_step xops dm df pen ds d q) ws (mst st) = Ret (mst (fold_left (rstep PB) ws st)).
Proof. intros H. apply (foldM_rep mst). intros; apply bstep_ref; auto. Qed.

Lemma bocv_ref W Z ws : (forall j, In j ws -> (j < p)%nat) ->
  opt_cond_violation_mt df pen ds (xm p T W) (xm n T Z) ws d q = Ret (map (fun j => Fin (rdist PB W Z j)) ws, rkmax PB W Z ws).
Proof.
  intros H. unfold opt_cond_violation_mt, construct_grad_mt. rewrite HT.
  rewrite (mapM_ret _ (fun j => xv T (g Z j))) by (intros; apply (dfm_ok_grad _ _ _ _ _ _ _ _ _ HF); auto). cbn [bind].
  rewrite reshape_concat; [|apply map_length|apply Forall_forall; intros x Hx; apply in_map_iff in Hx as (j & <- & _); apply xv_length]. cbn [bind].
  rewrite (bo_dist _ _ _ _ _ _ _ HP) by auto. reflexivity.
Qed.
Lemma bobj_ref W Z : fadd xops (Fin (f Z)) (bpen_value pen q (xm p T W)) = Fin (robj PB W Z).
Proof. rewrite (bo_value _ _ _ _ _ _ _ HP). reflexivity. Qed.

Lemma flat_len (W : rmat) ws : length (concat (map (row PB W) ws)) = (length ws * T)%nat.
Proof. induction ws as [|j ws IH]; simpl; auto. rewrite app_length, IH. unfold row. cbn [pT]. rewrite tab_length. auto. Qed.
Lemma bstore_ref K H W ws r : (r <= K)%nat -> (forall j, In j ws -> (j < p)%nat) ->
  store_iterate_mt (xm (S K) (length ws * T) H) (xm p T W) ws r = Ret (xm (S K) (length ws * T) (rstore PB H r W ws)).
Proof.
  intros Hr Hin. unfold store_iterate_mt.
  rewrite (mapM_ret _ (fun j => xv T (W j))) by (intros; unfold xm; rewrite mrow_tabm by auto; reflexivity). cbn [bind].
  assert (E : concat (map (fun j => xv T (W j)) ws) = xv (length ws * T) (fun c => nth c (concat (map (row PB W) ws)) 0)).
  { rewrite <- mapFin_xv. rewrite <- (flat_len W ws), tab_nth. rewrite concat_map, map_map. f_equal. apply map_ext. intros j. symmetry. apply mapFin_xv. }
  rewrite E. unfold xm, xv. rewrite mset_row_tabm by lia. f_equal. apply tabm_ext. intros a c _ _. unfold rstore. destruct (Nat.eqb a r); reflexivity.
Qed.
Lemma seq_off b k : seq b k = map (fun t => (b + t)%nat) (seq 0 k).
Proof.
  revert b. induction k as [|k IH]; intros b; [reflexivity|]. rewrite !seq_S, map_app, <- IH. reflexivity.
Qed.
Lemma tab_block (v : nat -> xr) k : tab (k * T) v = concat (tab k (fun i => tab T (fun t => v (i * T + t)%nat))).
Proof.
  induction k as [|k IH]; [reflexivity|]. rewrite tab_S, concat_app. simpl concat. rewrite app_nil_r, <- IH.
  replace (S k * T)%nat with (k * T + T)%nat by lia. unfold tab. rewrite seq_app, map_app. f_equal. rewrite Nat.add_0_l.
  clear. set (b := (k * T)%nat). clearbody b. rewrite <- (map_map (fun t => (b + t)%nat) v). f_equal.
  apply seq_off.
Qed.
Lemma bscatter_ref pt ws : NoDup ws -> (forall j, In j ws -> (j < p)%nat) ->
  scatter_mt xops p T (xv (length ws * T) pt) ws = Ret (xm p T (rscatter PB (xv (length ws * T) pt) ws)).
Proof.
  intros ND Hin. unfold scatter_mt. unfold xv at 1. rewrite tab_block.
  rewrite (reshape_concat_tab (length ws) T (fun i t => Fin (pt (i * T + t)%nat))). cbn [bind]. rewrite mzeros_xm.
  unfold tabm. cbn [mrows].
  assert (A : forall l (v : list (nat -> R)) W, NoDup l -> (forall j, In j l -> (j < p)%nat) -> length v = length l ->
    foldM (fun W_acc rj => mset_row W_acc (snd rj) (fst rj)) (combine (map (fun r => xv T r) v) l) (xm p T W)
    = Ret (xm p T (fun i t => match pos i l with Some k => nth k v (fun _ => 0) t | None => W i t end))).
  { induction l as [|a l IH]; intros v W N1 H1 HLv; destruct v as [|x v]; try discriminate; simpl; auto.
    unfold xm at 1, xv at 1. rewrite mset_row_tabm by (apply H1; left; auto). cbn [bind].
    replace (tabm p T (fun a0 b => if (a0 =? a)%nat then Fin (x b) else Fin (W a0 b))) with (xm p T (fun a0 b => if (a0 =? a)%nat then x b else W a0 b))
      by (apply tabm_ext; intros; destruct (Nat.eqb _ _); auto).
    inversion N1; subst. rewrite IH; auto.
    - f_equal. apply xm_ext. intros i t Hi Ht. destruct (Nat.eqb_spec i a) as [->|].
      + rewrite pos_notin by auto. auto.
      + destruct (pos i l); auto.
    - intros; apply H1; right; auto. }
  specialize (A ws (tab (length ws) (fun i t => pt (i * T + t)%nat)) (fun _ _ => 0) ND Hin (tab_length _ _)). rewrite map_tab in A.
  unfold xv in A. rewrite A. f_equal. apply xm_ext. intros i t Hi Ht. unfold rscatter. cbn [pT].
  destruct (in_dec Nat.eq_dec i ws) as [Hw|Hw].
  - destruct (pos_In i ws Hw) as (k & -> & Hk & _). rewrite nth_tab by lia. unfold xv. rewrite nth_tab by nia. reflexivity.
  - rewrite pos_notin by auto. auto.
Qed.
Definition mst3 K w (st : rmat * rmat * rmat) : mat xr * mat xr * mat xr := (xm p T (fst (fst st)), xm n T (snd (fst st)), xm (S K) w (snd st)).
Lemma baccel_ref W Z H ws e K v : NoDup ws -> (forall j, In j ws -> (j < p)%nat) ->
  anderson_accel_mt xops dm df pen ds (xm p T W) (xm n T Z) d q ws (xm (S K) (length ws * T) H) e K v
  = bind (raccel PB W Z H ws e K) (fun st => Ret (mst3 K (length ws * T) st)).
Proof.
  intros ND Hin. unfold anderson_accel_mt, raccel. rewrite (dm_ok_nf _ _ _ _ _ HD). cbn [bind]. rewrite HT.
  assert (Hm : (e mod S K <= K)%nat) by (pose proof (Nat.mod_upper_bound e (S K)); lia).
  rewrite bstore_ref by auto. cbn [bind]. destruct (e mod S K =? K)%nat eqn:E; [|reflexivity].
  cbn [pT]. set (H' := rstore PB H (e mod S K) W ws).
  destruct (Nat.eq_dec K 0) as [->|HK0]; [rewrite (anderson_k0 xops) by apply xm_shaped; reflexivity|].
  destruct (Nat.lt_ge_cases (length ws * T) K) as [HK|HK]; [rewrite (anderson_oob xops) by (auto; apply xm_shaped); reflexivity|].
  destruct (anderson_point_res K (length ws * T) H') as [Ea|(pt & Ea & c & Hc & Ept)]; [lia|rewrite Ea; reflexivity|].
  rewrite Ea. cbn [bind]. rewrite Ept. rewrite bscatter_ref by auto. cbn [bind]. rewrite Hn.
  set (V := rscatter _ _ _). rewrite (dm_ok_ext_mt _ _ _ _ _ HD) by auto. cbn [bind].
  rewrite (dfm_ok_value _ _ _ _ _ _ _ _ _ HF). cbn [bind].
  change (fun i t => Rsum (map (fun j => X i j * V j t) ws)) with (rfit PB V ws).
  rewrite (dfm_ok_value _ _ _ _ _ _ _ _ _ HF). cbn [bind]. cbv zeta. rewrite !bobj_ref. cbn [flt xops xlt].
  destruct (Rltb _ _); reflexivity.
Qed.
Lemma binner_ref tol kmax K acc v ws : NoDup ws -> (forall j, In j ws -> (j < p)%nat) -> forall es W Z H,
  inner_loop_mt xops dm df pen ds d q p tol kmax K acc v ws (length ws) es (xm p T W) (xm n T Z) (xm (S K) (length ws * T) H)
  = bind (rinner PB tol kmax K acc ws es W Z H) (fun st => Ret (mst st)).
Proof.
  intros ND Hin. induction es as [|e es IH]; intros W Z H; [reflexivity|]. cbn [inner_loop_mt rinner].
  change (xm p T W, xm n T Z) with (mst (W, Z)). rewrite bsteps_ref by auto. cbn [bind].
  destruct (fold_left (rstep PB) ws (W, Z)) as [W1 Z1]. cbn [mst fst snd].
  set (m := if acc then raccel PB W1 Z1 H ws e K else Ret (W1, Z1, H)).
  transitivity (bind (bind m (fun st => Ret (mst3 K (length ws * T) st))) (fun '(w, Xw, last_K_w) =>
      let continue := inner_loop_mt xops dm df pen ds d q p tol kmax K acc v ws (length ws) es w Xw last_K_w in
      if ((0 <? e) && (e mod 10 =? 0))%nat then
        v <- dfm_value df d ds Xw ;;
        '(_, kkt_ws_max) <- opt_cond_violation_mt df pen ds w Xw ws d q ;;
        if (length ws =? p)%nat then if fle xops kkt_ws_max tol then Ret (w, Xw) else continue
        else if flt xops kkt_ws_max (fmul xops (flit xops 3 10) kmax) then Ret (w, Xw) else continue
      else continue)).
  { unfold m. destruct acc; [rewrite baccel_ref by auto; reflexivity|reflexivity]. }
  rewrite bind_map, bind_assoc. apply bind_eq; auto. intros [[W2 Z2] H2] _. cbn [mst3 fst snd]. cbv zeta. rewrite IH.
  destruct (_ && _); [|reflexivity]. rewrite (dfm_ok_value _ _ _ _ _ _ _ _ _ HF). cbn [bind]. rewrite bocv_ref by auto. cbn [bind].
  cbn [fle flt fmul flit xops]. cbn [pp]. destruct (length ws =? p)%nat.
  - destruct (xle _ _); reflexivity.
  - destruct (xlt _ _); reflexivity.
Qed.
Lemma bsel_ref W Z ws0 : (ws0 <= p)%nat -> exists ws, rsel PB srt W Z ws0 = Ret (ws, length ws) /\ NoDup ws /\ (forall j, In j ws -> (j < p)%nat) /\
  construct_ws_from_kkt_mt xops srt (map (fun j => Fin (rdist PB W Z j)) (seq 0 p)) (xm p T W) ws0 = Ret (ws, length ws).
Proof.
  intros H0. unfold rsel. destruct (select_ok xops srt xr_laws (rnz PB W) p (tab p (fun j => Fin (rdist PB W Z j))) ws0 VS H0) as (ws & E & (ND & IN) & _).
  { intros j Hj _. rewrite nth_tab by auto. reflexivity. }
  exists ws. cbn [pp]. split; auto. split; auto. split; auto. rewrite (construct_ws_mt_select _ _ _ _ _ p T).
  - rewrite <- E. apply select_ext; [|reflexivity]. intros j Hj. unfold nzm, rnz, xm, tabm. cbn [mrows]. rewrite nth_tab by auto.
    change (tab T (fun j0 => Fin (W j j0))) with (xv T (W j)). rewrite anynz_xv. reflexivity.
  - apply xm_shaped.
  - rewrite map_length, seq_length. auto.
Qed.
Lemma bouter_ref tol K acc v ws0 me : (ws0 <= p)%nat -> forall it W Z,
  outer_loop_mt xops dm df pen srt ds d q p ws0 me tol K acc v it (xm p T W) (xm n T Z)
  = bind (router PB srt tol K acc ws0 me it W Z) (fun st => Ret (xm p T (fst st))).
Proof.
  intros H0. induction it as [|it IH]; intros W Z; [reflexivity|]. cbn [outer_loop_mt router].
  rewrite bocv_ref by (intros j Hj; apply in_seq in Hj; lia). cbn [bind]. cbn [fle xops]. cbn [pp].
  destruct (xle _ _); [reflexivity|]. destruct (bsel_ref W Z ws0 H0) as (ws & E & ND & IN & Ec). rewrite Ec, E. cbn [bind].
  rewrite mzeros_xm, HT. rewrite (binner_ref tol (rkmax PB W Z (seq 0 p)) K acc v ws ND IN (seq 0 me) W Z (fun _ _ => 0)).
  rewrite bind_map, bind_assoc. apply bind_eq; auto. intros [W' Z'] _. cbn [mst fst snd]. apply IH.
Qed.
Lemma bcd_ref d0 tol K acc v ws0 me it : dfm_initialize df d0 ds = Ret d ->
  block_coordinate_descent xops dm df pen srt ds d0 q ws0 it me tol K acc v = bind (rsolve PB srt tol K acc ws0 me it) (fun st => Ret (xm p T (fst st))).
Proof.
  intros Hd. unfold block_coordinate_descent, rsolve. rewrite (dm_ok_nf _ _ _ _ _ HD), Hn, HT, Hd. cbn [bind]. rewrite !mzeros_xm. cbn [pp].
  replace (if (p <? ws0)%nat then p else ws0) with (Nat.min ws0 p) by (destruct (Nat.ltb_spec p ws0); lia).
  apply (bouter_ref tol K acc v (Nat.min ws0 p) me (Nat.le_min_r _ _) it (fun _ _ => 0) (fun _ _ => 0)).
Qed.
End BCD.
