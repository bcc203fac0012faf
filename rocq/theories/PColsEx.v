(** Concrete instances for [PropCols]: the third of three columns is dropped, the others swapped. *)
From Coq Require Import List ZArith Bool Arith Reals Lra Lia.
From Verif Require Import Ops Arr MUtils MDatasets MDatafits MPenalties MCd MHyper MEstimators XR SpecPen PBase RSum SpecLin SpecData PDataEx SpecSolve PLaws SpecOpt PFitOpt PCert SpecBudget POptEx PSens PSensEx PCols.
Import ListNotations.
Open Scope R_scope.

Definition keep : list nat := [1; 0]%nat.
Definition exK : rmat := fun i j => entry exE i (nth j keep 0%nat).
(** without extrapolation, which needs at least [K = 3] columns *)
Definition kpr : params xr := Params (Fin 0) (Fin 0) 50 50 3 (Fin (1/100)) 3 false false.
Definition fit_keep a m := ok (solver_call (dsort xops) (dense_dm xops) (quad_dense xops) (LassoPen a) (solver_max_iterations m (settings kpr)) (Dataset (xm 3 2 exK) (T2 (xm 3 1 (fun i _ => oy i)))) (Quad [] [])).
Lemma keep_fit a : 0 <= a -> single_fit (dsort xops) 3 (length keep) exK oy Squared (LassoPen a) (settings kpr) (fit_keep a).
Proof. intros Ha. apply (solve_quad_dense (dsort xops) 3 2 exK oy (LassoPen a) (settings kpr)); [right; reflexivity|simpl; lra]. Qed.
Lemma keep_accepted a : accepted (fit_keep a).
Proof. intros m e. unfold fit_keep. destruct (solver_call _ _ _ _ _ _ _); discriminate. Qed.
Lemma keep_settings : let s := settings (opr 0 0) in let s' := settings kpr in s_tolerance s = Fin (1/100) /\ s_tolerance s' = Fin (1/100) /\
  forall q d, In (q, d) [(s, 3%nat); (s', length keep)] -> (1 <= s_ws_start_size q)%nat /\ (1 <= s_max_epochs q)%nat /\ calm_schedule (s_use_acceleration q) (s_K q) (s_max_epochs q) /\
     accel_safe (s_use_acceleration q) (s_K q) (Nat.min (s_ws_start_size q) d) (s_max_epochs q).
Proof.
  destruct (ex_settings 0 0) as (A & B & C & D & E & _). intros s s'. split; [exact A|]. split; [reflexivity|].
  intros q d [H|[H|[]]]; inversion H; subst q d; [repeat (split; auto)|]. cbn. repeat split; try lia; left; reflexivity.
Qed.
Lemma keep_ok : NoDup keep /\ forall j, In j keep -> (j < 3)%nat.
Proof. split; [repeat constructor; simpl; intuition lia|intros j [<-|[<-|[]]]; lia]. Qed.
(** the third coefficient of the converged fit vanishes *)
Lemma keep_zero N w : (forall m, (N <= m)%nat -> fit_las (1/10) m = Ret (Ok (xv 3 w))) -> forall j, (j < 3)%nat -> ~ In j keep -> w j = 0.
Proof.
  intros H j Hj Hn. assert (j = 2)%nat as -> by (destruct j as [|[|[|j]]]; simpl in Hn; [tauto|tauto|auto|lia]).
  destruct keep_settings as (Et & _ & Hq).
  destruct (one_fit 3 3 ltac:(lia) (entry exE) oy Squared (LassoPen (1/10)) (dsort xops) xr_sort (1/10) _ _ (1/100) I eq_refl (las_fit (1/10) ltac:(lra)) (proj2 var_accepted _) Et ltac:(lra) (Hq _ _ (or_introl eq_refl)))
    as (N' & w' & Hall & Hst & Hr & Hc).
  assert (E : xv 3 w = xv 3 w'). { specialize (H (Nat.max N N') ltac:(lia)). specialize (Hall (Nat.max N N') ltac:(lia)). congruence. }
  rewrite (xv_inj 3 w w' E 2 ltac:(lia)). destruct (Hst 2%nat ltac:(lia)) as (d & (g & Dg & (_ & s & Hs & Ed)) & Hd).
  assert (g = 0) as ->.
  { eapply uniqueness_limite; [exact Dg|]. assert (Q := loss1_deriv 3 3 ltac:(lia) Squared (entry exE) oy w' 2 ltac:(lia)).
    assert (Z : dloss1 3 3 Squared (entry exE) oy w' 2 = 0).
    { cbn [dloss1]. unfold PDatafit.gq. destruct ex_entries as (_ & _ & _ & _ & _ & _ & E6). rewrite !Sum_zero by (intros; rewrite E6; ring). unfold Rdiv. ring. }
    rewrite Z in Q. exact Q. }
  pose proof (subgrad_global _ _ _ (pen1_convex _ Hr Hc) Hs 0) as G. cbn [pen1] in G. unfold abs_pen in G. rewrite Rabs_R0 in G.
  assert (B : s * w' 2%nat <= 1/100 * Rabs (w' 2%nat)).
  { apply Rle_trans with (1 := Rle_abs _). rewrite Rabs_mult. apply Rmult_le_compat_r; [apply Rabs_pos|]. replace (Rabs s) with (Rabs (- 0 - s)) by (rewrite <- (Rabs_Ropp s); f_equal; ring). lra. }
  destruct (Req_dec (w' 2%nat) 0) as [Z|Z]; auto. pose proof (Rabs_pos_lt _ Z). lra.
Qed.
Lemma tenth_nonneg : 0 <= 1/10.
Proof. lra. Qed.
