(** Proofs: scores are distances to subdifferentials. *)
From Coq Require Import List ZArith Bool Arith Reals Lra Lia Psatz.
From Verif Require Import Ops Arr XR SpecPen VecR MUtils MPenalties MBlockPenalties PProx.
Import ListNotations.
Open Scope R_scope.

(** the reported maximum of a list of scores *)
Definition max_reported (l : list R) (m : xr) : Prop :=
  (l = [] /\ m = NInf) \/ exists r, m = Fin r /\ In r l /\ forall x, In x l -> x <= r.

Lemma fold_max_fin l : forall a,
  fold_left (fun m x => fmax xops m x) (map Fin l) (Fin a) = Fin (fold_left Rmax l a).
Proof. induction l as [|x l IH]; intros a; simpl; [reflexivity|apply IH]. Qed.
Lemma fold_Rmax_spec l : forall a,
  (In (fold_left Rmax l a) (a :: l)) /\ (forall x, In x (a :: l) -> x <= fold_left Rmax l a).
Proof.
  induction l as [|y l IH]; intros a; simpl.
  - split; auto. intros x [H|[]]; lra.
  - destruct (IH (Rmax a y)) as [H1 H2]. split.
    + destruct H1 as [H1|H1]; auto. rewrite <- H1. unfold Rmax. destruct (Rle_dec a y); auto.
    + intros x [H|[H|H]].
      * subst. apply Rle_trans with (Rmax x y); [apply Rmax_l|apply H2; left; auto].
      * subst. apply Rle_trans with (Rmax a x); [apply Rmax_r|apply H2; left; auto].
      * apply H2; right; auto.
Qed.
Lemma fold_max_reported l : max_reported l (fold_max xops NInf (map Fin l)).
Proof.
  unfold fold_max. destruct l as [|x l]; simpl.
  - left; auto.
  - right. rewrite fold_max_fin. eexists. split; [reflexivity|]. apply fold_Rmax_spec.
Qed.

(** generic facts on [mapM] *)
Lemma mapM_ret {A B} (f : A -> res B) (g : A -> B) l :
  (forall x, In x l -> f x = Ret (g x)) -> mapM f l = Ret (map g l).
Proof.
  induction l as [|x l IH]; intros H; simpl; auto.
  rewrite H by (left; auto). simpl. rewrite IH by (intros; apply H; right; auto). reflexivity.
Qed.

Lemma vget_map_fin w j : (j < length w)%nat -> vget (map Fin w) j = Ret (Fin (nth j w 0)).
Proof.
  intros H. unfold vget. rewrite nth_error_map.
  rewrite (nth_error_nth' w 0 H). reflexivity.
Qed.

Lemma scores_fin score rs w grad ws :
  (forall x g, score (Fin x) (Fin g) = Fin (rs x g)) ->
  (forall j, In j ws -> (j < length w)%nat) ->
  scores xops score (map Fin w) (map Fin grad) ws
  = Ret (map Fin (map2 (fun g j => rs (nth j w 0) g) grad ws),
         fold_max xops NInf (map Fin (map2 (fun g j => rs (nth j w 0) g) grad ws))).
Proof.
  intros Hs Hws. unfold scores.
  assert (E : mapM (fun p => bind (vget (map Fin w) (snd p)) (fun wj => Ret (score wj (fst p))))
                (combine (map Fin grad) ws)
              = Ret (map Fin (map2 (fun g j => rs (nth j w 0) g) grad ws))).
  { revert ws Hws. induction grad as [|g grad IH]; intros ws Hws; simpl; auto.
    destruct ws as [|j ws]; simpl; auto.
    rewrite vget_map_fin by (apply Hws; left; auto). simpl. rewrite Hs.
    rewrite IH by (intros; apply Hws; right; auto). reflexivity. }
  rewrite E. reflexivity.
Qed.

(** *** scalar subdifferentials *)
Lemma subgrad_unique phi w q s : subgrad phi w s ->
  (exists M d, 0 <= M /\ 0 < d /\ forall x, Rabs (x - w) < d ->
     phi x <= phi w + q * (x - w) + M * (x - w) ^ 2) -> s = q.
Proof.
  intros (m & Hm & Hs) (M & d & HM & Hd & Hu).
  destruct (Req_dec s q) as [|Hne]; auto. exfalso.
  (* h of size eps with the sign of s - q *)
  set (D := Rabs (s - q)).
  assert (HD : 0 < D) by (apply Rabs_pos_lt; lra).
  set (eps := Rmin (d / 2) (D / (2 * (m + M + 1)))).
  assert (He : 0 < eps).
  { unfold eps. apply Rmin_pos; [lra|]. apply Rmult_lt_0_compat; auto. apply Rinv_0_lt_compat. lra. }
  assert (He1 : eps <= d / 2) by apply Rmin_l.
  assert (He2 : eps * (2 * (m + M + 1)) <= D).
  { apply Rmult_le_reg_r with (/ (2 * (m + M + 1))); [apply Rinv_0_lt_compat; lra|].
    rewrite Rmult_assoc, Rinv_r by lra. rewrite Rmult_1_r. apply Rmin_r. }
  set (h := if Rltb (s - q) 0 then - eps else eps).
  assert (Hh : (s - q) * h = D * eps /\ h ^ 2 = eps ^ 2 /\ Rabs h = eps).
  { unfold h, D. rcase.
    - rewrite Rabs_Ropp, (Rabs_right eps), (Rabs_left (s - q)) by lra. repeat split; ring.
    - rewrite (Rabs_right eps), (Rabs_right (s - q)) by lra. repeat split; ring. }
  destruct Hh as (Hh1 & Hh2 & Hh3).
  specialize (Hs (w + h)). specialize (Hu (w + h)).
  replace (w + h - w) with h in * by ring.
  assert (phi (w + h) <= phi w + q * h + M * h ^ 2) by (apply Hu; lra).
  rewrite Hh2 in *. nra.
Qed.

Lemma dist_smooth phi w q z :
  (exists m, 0 <= m /\ forall x, phi w + q * (x - w) - m * (x - w) ^ 2 <= phi x) ->
  (exists M d, 0 <= M /\ 0 < d /\ forall x, Rabs (x - w) < d ->
     phi x <= phi w + q * (x - w) + M * (x - w) ^ 2) ->
  is_dist (subgrad phi w) z (Rabs (z - q)).
Proof.
  intros Hl Hu. split.
  - intros s Hs. rewrite (subgrad_unique _ _ _ _ Hs Hu). lra.
  - exists q. split; [exact Hl|reflexivity].
Qed.

Lemma subgrad_zero_bound phi a s : phi 0 = 0 -> 0 <= a ->
  (exists M d, 0 <= M /\ 0 < d /\ forall x, Rabs x < d -> phi x <= a * Rabs x + M * x ^ 2) ->
  subgrad phi 0 s -> Rabs s <= a.
Proof.
  intros H0 Ha (M & d & HM & Hd & Hu) (m & Hm & Hs).
  apply Rnot_lt_le. intro Hlt. set (D := Rabs s - a). assert (HD : 0 < D) by (unfold D; lra).
  set (eps := Rmin (d / 2) (D / (2 * (m + M + 1)))).
  assert (He : 0 < eps).
  { unfold eps. apply Rmin_pos; [lra|]. apply Rmult_lt_0_compat; auto. apply Rinv_0_lt_compat. lra. }
  assert (He1 : eps <= d / 2) by apply Rmin_l.
  assert (He2 : eps * (2 * (m + M + 1)) <= D).
  { apply Rmult_le_reg_r with (/ (2 * (m + M + 1))); [apply Rinv_0_lt_compat; lra|].
    rewrite Rmult_assoc, Rinv_r by lra. rewrite Rmult_1_r. apply Rmin_r. }
  set (h := if Rltb s 0 then - eps else eps).
  assert (Hh : s * h = Rabs s * eps /\ h ^ 2 = eps ^ 2 /\ Rabs h = eps).
  { unfold h. rcase.
    - rewrite Rabs_Ropp, (Rabs_right eps), (Rabs_left s) by lra. repeat split; ring.
    - rewrite (Rabs_right eps), (Rabs_right s) by lra. repeat split; ring. }
  destruct Hh as (Hh1 & Hh2 & Hh3).
  specialize (Hs h). specialize (Hu h). rewrite H0 in Hs.
  replace (h - 0) with h in * by ring.
  assert (phi h <= a * Rabs h + M * h ^ 2) by (apply Hu; lra).
  rewrite Hh2, Hh3 in *. unfold D in *. nra.
Qed.

Lemma dist_zero phi a z : phi 0 = 0 -> 0 <= a ->
  (exists m, 0 <= m /\ forall x, a * Rabs x - m * x ^ 2 <= phi x) ->
  (exists M d, 0 <= M /\ 0 < d /\ forall x, Rabs x < d -> phi x <= a * Rabs x + M * x ^ 2) ->
  is_dist (subgrad phi 0) z (Rmax 0 (Rabs z - a)).
Proof.
  intros H0 Ha (m & Hm & Hl) Hu. split.
  - intros s Hs. pose proof (subgrad_zero_bound _ _ _ H0 Ha Hu Hs).
    apply Rmax_lub; [apply Rabs_pos|].
    pose proof (Rabs_triang (z - s) s) as Ht. replace (z - s + s) with z in Ht by ring. lra.
  - assert (Hin : forall s, Rabs s <= a -> subgrad phi 0 s).
    { intros s Hs. exists m. split; auto. intros x. rewrite H0.
      replace (x - 0) with x by ring. specialize (Hl x).
      assert (s * x <= a * Rabs x).
      { apply Rle_trans with (Rabs (s * x)); [apply Rle_abs|]. rewrite Rabs_mult.
        apply Rmult_le_compat_r; [apply Rabs_pos|auto]. }
      lra. }
    destruct (Rle_dec (Rabs z) a) as [Hz|Hz].
    + exists z. split; [apply Hin; auto|]. rewrite Rmax_left by lra.
      replace (z - z) with 0 by ring. apply Rabs_R0.
    + rewrite Rmax_right by lra. destruct (Rcase_abs z) as [Hn|Hn].
      * exists (- a). split.
        -- apply Hin. rewrite Rabs_Ropp, Rabs_right; lra.
        -- rewrite (Rabs_left z) in * by lra. rewrite Rabs_left by lra. ring.
      * exists a. split.
        -- apply Hin. rewrite Rabs_right; lra.
        -- rewrite (Rabs_right z) in * by lra. rewrite Rabs_right by lra. ring.
Qed.

Definition rsign (x : R) : R := if Rltb x 0 then -1 else 1.
Lemma rsign_abs x : rsign x * x = Rabs x.
Proof. unfold rsign. rcase; [rewrite Rabs_left|rewrite Rabs_right]; lra. Qed.
Lemma rsign_le x y : rsign x * y <= Rabs y.
Proof. unfold rsign. rcase; unfold Rabs; destruct (Rcase_abs y); lra. Qed.
Lemma rsign_near x y : x <> 0 -> Rabs (y - x) < Rabs x -> Rabs y = rsign x * y.
Proof.
  unfold rsign. intros Hx Hn. rcase.
  - rewrite (Rabs_left x) in Hn by lra. apply Rabs_def2 in Hn. rewrite Rabs_left; lra.
  - rewrite (Rabs_right x) in Hn by lra. apply Rabs_def2 in Hn. rewrite Rabs_right; lra.
Qed.
Lemma xsignum_fin x : xsignum (Fin x) = Fin (rsign x).
Proof. unfold rsign. simpl. rcase; auto. Qed.

(** *** the three single-task scores *)
Definition r_l1_score (a w g : R) : R :=
  if Reqb w 0 then Rmax 0 (Rabs g - a) else Rabs (- g - rsign w * a).
Lemma l1_score_fin a w g : l1_score xops (L1 (Fin a)) (Fin w) (Fin g) = Fin (r_l1_score a w g).
Proof.
  unfold l1_score, r_l1_score. cbn [l1_alpha feq xops xeq f0]. rcase; auto.
  cbn [fsignum xops]. rewrite xsignum_fin. reflexivity.
Qed.
Lemma r_l1_score_dist a w g : 0 <= a ->
  is_dist (subgrad (abs_pen a) w) (- g) (r_l1_score a w g).
Proof.
  intros Ha. unfold r_l1_score. rcase.
  - subst w. rewrite <- (Rabs_Ropp g). apply dist_zero; auto.
    + unfold abs_pen. rewrite Rabs_R0. ring.
    + exists 0. split; [lra|]. intros x. unfold abs_pen. lra.
    + exists 0, 1. repeat split; try lra. intros x _. unfold abs_pen. lra.
  - apply dist_smooth.
    + exists 0. split; [lra|]. intros x. unfold abs_pen.
      pose proof (rsign_abs w). pose proof (rsign_le w x). nra.
    + exists 0, (Rabs w). split; [lra|]. split; [apply Rabs_pos_lt; auto|].
      intros x Hx. unfold abs_pen. rewrite (rsign_near w x) by auto.
      pose proof (rsign_abs w). nra.
Qed.

Definition r_l1l2_score (a r w g : R) : R :=
  if Reqb w 0 then Rmax 0 (Rabs g - a * r) else Rabs (- g - a * (rsign w * r + (1 - r) * w)).
Lemma l1l2_score_fin a r w g :
  l1l2_score xops (L1PlusL2 (Fin a) (Fin r)) (Fin w) (Fin g) = Fin (r_l1l2_score a r w g).
Proof.
  unfold l1l2_score, r_l1l2_score. cbn [en_alpha en_l1_ratio feq xops xeq f0]. rcase; auto.
  cbn [fsignum xops]. rewrite xsignum_fin. reflexivity.
Qed.
Lemma r_l1l2_score_dist a r w g : 0 <= a -> 0 <= r <= 1 ->
  is_dist (subgrad (enet_pen a r) w) (- g) (r_l1l2_score a r w g).
Proof.
  intros Ha Hr.
  assert (H1 : 0 <= a * ((1 - r) / 2)) by (apply Rmult_le_pos; lra).
  unfold r_l1l2_score. rcase.
  - subst w. rewrite <- (Rabs_Ropp g). apply dist_zero; [| nra | |].
    + unfold enet_pen. rewrite Rabs_R0. ring.
    + exists 0. split; [lra|]. intros x. unfold enet_pen. pose proof (pow2_ge_0 x). nra.
    + exists (a * ((1 - r) / 2)), 1. repeat split; try lra. intros x _. unfold enet_pen. nra.
  - apply dist_smooth.
    + exists 0. split; [lra|]. intros x. unfold enet_pen.
      pose proof (rsign_abs w). pose proof (rsign_le w x).
      assert (0 <= a * ((1 - r) / 2) * (x - w) ^ 2) by (apply Rmult_le_pos; [auto|apply pow2_ge_0]).
      assert (a * r * (rsign w * x) <= a * r * Rabs x) by (apply Rmult_le_compat_l; nra).
      rewrite <- H. nra.
    + exists (a * ((1 - r) / 2)), (Rabs w). split; [lra|]. split; [apply Rabs_pos_lt; auto|].
      intros x Hx. unfold enet_pen. rewrite (rsign_near w x) by auto.
      pose proof (rsign_abs w). rewrite <- H. nra.
Qed.

Definition r_mcp_score (a gm w g : R) : R :=
  if Reqb w 0 then Rmax 0 (Rabs g - a)
  else if Rltb (Rabs w) (a * gm) then Rabs (g + a * rsign w - w / gm) else Rabs g.
Lemma mcp_score_fin a gm w g : gm <> 0 ->
  mcp_score xops (MCP (Fin a) (Fin gm)) (Fin w) (Fin g) = Fin (r_mcp_score a gm w g).
Proof.
  intros Hg. unfold mcp_score, r_mcp_score. cbn [mcp_alpha mcp_gamma feq xops xeq f0].
  destruct (Reqb w 0); auto. cbn [flt fabs fmul xops xabs xmul xlt]. rcase; auto.
  cbn [fsignum fdiv xops]. rewrite xsignum_fin, xdiv_fin by auto. reflexivity.
Qed.
Lemma mcp_pen_const a gm w : 0 < gm -> a * gm <= Rabs w -> mcp_pen a gm w = gm * a ^ 2 / 2.
Proof.
  intros Hg H. unfold mcp_pen. destruct (Rle_dec _ _); auto.
  assert (E : Rabs w = gm * a) by lra. rewrite <- (pow2_abs w), E. field. lra.
Qed.
Lemma mcp_pen_le_const a gm w : 0 < gm -> mcp_pen a gm w <= gm * a ^ 2 / 2.
Proof.
  intros Hg. unfold mcp_pen. destruct (Rle_dec _ _); [|lra].
  assert (E : gm * a ^ 2 / 2 - (a * Rabs w - w ^ 2 / (2 * gm)) = (Rabs w - gm * a) ^ 2 / (2 * gm)).
  { rewrite <- (pow2_abs w). field. lra. }
  assert (0 <= (Rabs w - gm * a) ^ 2 / (2 * gm)); [|lra].
  apply Rmult_le_pos; [apply pow2_ge_0|left; apply Rinv_0_lt_compat; lra].
Qed.
Lemma r_mcp_score_dist a gm w g : 0 <= a -> 0 < gm ->
  is_dist (subgrad (mcp_pen a gm) w) (- g) (r_mcp_score a gm w g).
Proof.
  intros Ha Hg.
  assert (Hinv : 0 < / (2 * gm)) by (apply Rinv_0_lt_compat; lra).
  assert (Hlow : forall x, a * Rabs x - / (2 * gm) * x ^ 2 <= mcp_pen a gm x).
  { intros x. pose proof (mcp_hull_ge a gm x Ha Hg). unfold mcp_hull in H. unfold Rdiv in H. lra. }
  unfold r_mcp_score. destruct (Reqb w 0) eqn:Ew; [|destruct (Rltb (Rabs w) (a * gm)) eqn:Eg]; rb.
  - subst w. rewrite <- (Rabs_Ropp g).
    assert (H0 : mcp_pen a gm 0 = 0).
    { unfold mcp_pen. rewrite Rabs_R0. destruct (Rle_dec _ _); [field; lra|]. nra. }
    apply dist_zero; auto.
    + exists (/ (2 * gm)). split; [lra|]. auto.
    + destruct (Req_dec a 0) as [E|E].
      * exists 0, 1. repeat split; try lra. intros x _. subst a.
        pose proof (mcp_pen_le_const 0 gm x Hg). lra.
      * exists 0, (gm * a). split; [lra|]. split; [nra|]. intros x Hx.
        unfold mcp_pen. destruct (Rle_dec _ _); [|lra].
        assert (0 <= x ^ 2 / (2 * gm)) by (apply Rmult_le_pos; [apply pow2_ge_0|lra]). lra.
  - replace (Rabs (g + a * rsign w - w / gm)) with (Rabs (- g - (a * rsign w - w / gm))).
    2:{ rewrite <- Rabs_Ropp. f_equal. ring. }
    apply dist_smooth.
    + exists (/ (2 * gm)). split; [lra|]. intros x. specialize (Hlow x).
      pose proof (rsign_abs w). pose proof (rsign_le w x).
      assert (a * (rsign w * x) <= a * Rabs x) by (apply Rmult_le_compat_l; auto).
      unfold mcp_pen at 1. destruct (Rle_dec _ _); [|lra].
      rewrite <- H.
      assert (E : a * (rsign w * w) - w ^ 2 / (2 * gm) + (a * rsign w - w / gm) * (x - w)
                  - / (2 * gm) * (x - w) ^ 2 = a * (rsign w * x) - / (2 * gm) * x ^ 2) by (field; lra).
      lra.
    + exists 0, (Rmin (Rabs w) (a * gm - Rabs w)). split; [lra|].
      split; [apply Rmin_pos; [apply Rabs_pos_lt; auto|lra]|].
      intros x Hx.
      assert (H1 : Rabs (x - w) < Rabs w) by (eapply Rlt_le_trans; [exact Hx|apply Rmin_l]).
      assert (H2 : Rabs (x - w) < a * gm - Rabs w) by (eapply Rlt_le_trans; [exact Hx|apply Rmin_r]).
      assert (H3 : Rabs x <= gm * a).
      { pose proof (Rabs_triang (x - w) w) as T. replace (x - w + w) with x in T by ring. lra. }
      unfold mcp_pen. destruct (Rle_dec (Rabs x) _); [|lra]. destruct (Rle_dec (Rabs w) _); [|lra].
      rewrite (rsign_near w x) by auto. rewrite <- (rsign_abs w).
      assert (E : a * (rsign w * w) - w ^ 2 / (2 * gm) + (a * rsign w - w / gm) * (x - w)
                  + 0 * (x - w) ^ 2 - (a * (rsign w * x) - x ^ 2 / (2 * gm))
                  = / (2 * gm) * (x - w) ^ 2) by (field; lra).
      assert (0 <= / (2 * gm) * (x - w) ^ 2) by (apply Rmult_le_pos; [lra|apply pow2_ge_0]).
      lra.
  - replace (Rabs g) with (Rabs (- g - 0)).
    2:{ rewrite <- Rabs_Ropp. f_equal. ring. }
    apply dist_smooth.
    + exists (/ (2 * gm)). split; [lra|]. intros x.
      rewrite (mcp_pen_const a gm w) by auto.
      pose proof (mcp_hull_sub_out a gm w x Ha Hg ltac:(lra)) as H.
      unfold mcp_hull in H. rewrite (mcp_pen_const a gm w) in H by auto.
      assert (E : w ^ 2 / (2 * gm) + w / gm * (x - w) - x ^ 2 / (2 * gm)
                  = - (/ (2 * gm) * (x - w) ^ 2)) by (field; lra).
      lra.
    + exists 0, 1. repeat split; try lra. intros x _.
      rewrite (mcp_pen_const a gm w) by auto. pose proof (mcp_pen_le_const a gm x Hg). lra.
Qed.

(** distances for a whole working set *)
Definition dists_spec (phi : R -> R) (w grad : list R) (ws : list nat) (r : res (list xr * xr)) : Prop :=
  exists ds m, r = Ret (map Fin ds, m) /\ length ds = length ws /\ max_reported ds m /\
    forall k, (k < length ws)%nat ->
      is_dist (subgrad phi (nth (nth k ws O) w 0)) (- nth k grad 0) (nth k ds 0).

Lemma map2_length {A B C} (f : A -> B -> C) l1 : forall l2,
  length l1 = length l2 -> length (map2 f l1 l2) = length l2.
Proof.
  intros l2 H. unfold map2. rewrite map_length, combine_length. lia.
Qed.
Lemma map2_nth {A B C} (f : A -> B -> C) l1 : forall l2 k da db dc,
  length l1 = length l2 -> (k < length l1)%nat ->
  nth k (map2 f l1 l2) dc = f (nth k l1 da) (nth k l2 db).
Proof.
  unfold map2. induction l1 as [|x l1 IH]; intros [|y l2] k da db dc H Hk; simpl in *; try lia; try discriminate.
  destruct k as [|k]; auto. apply IH; lia.
Qed.

Lemma scores_dists score rs phi w grad ws :
  (forall x g, score (Fin x) (Fin g) = Fin (rs x g)) ->
  (forall x g, is_dist (subgrad phi x) (- g) (rs x g)) ->
  length grad = length ws -> (forall j, In j ws -> (j < length w)%nat) ->
  dists_spec phi w grad ws (scores xops score (map Fin w) (map Fin grad) ws).
Proof.
  intros Hs Hd Hl Hws. rewrite (scores_fin score rs) by auto.
  eexists. eexists. split; [reflexivity|]. split; [|split].
  - apply map2_length; auto.
  - apply fold_max_reported.
  - intros k Hk. rewrite (map2_nth _ _ _ _ 0 O) by lia. apply Hd.
Qed.
