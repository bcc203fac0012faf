(** The extrapolated point over the exact reals: it is either skipped or an affine combination of
    the first [K] stored iterates. *)
From Coq Require Import List ZArith Bool Arith Reals Lra Lia.
From Verif Require Import Ops Arr MUtils MCd XR PBase RSum SpecLin PLin PLin2 PData PDatafit.
Import ListNotations.
Open Scope R_scope.

Lemma combine_tab {A B} n (f : nat -> A) (g : nat -> B) : combine (tab n f) (tab n g) = tab n (fun i => (f i, g i)).
Proof. unfold tab. generalize (seq 0 n). induction l; simpl; congruence. Qed.

Definition gram (K : nat) (U : rmat) : rmat := fun a b => Sum K (fun k => U k a * U k b).
Definition diffs_of (H : rmat) : rmat := fun k b => H (S k) b - H k b.

Lemma gram_sym K U n : symmetric n (gram K U).
Proof. intros r k _ _. apply Sum_ext. intros. ring. Qed.
Lemma gram_quad K U n v : quad n (gram K U) v = Sum K (fun k => (Sum n (fun a => U k a * v a)) ^ 2).
Proof.
  unfold quad, gram.
  rewrite (Sum_ext n _ (fun r => Sum K (fun k => (U k r * v r) * Sum n (fun b => U k b * v b)))).
  - rewrite (Sum_swap n K). apply Sum_ext. intros k _. rewrite Sum_scal_r. ring.
  - intros r _.
    rewrite (Sum_ext n _ (fun b => Sum K (fun k => U k r * U k b * v b))) by (intros; rewrite Sum_scal_r; reflexivity).
    rewrite (Sum_swap n K), <- Sum_scal. apply Sum_ext. intros k _.
    rewrite <- !Sum_scal. apply Sum_ext. intros. ring.
Qed.
Lemma gram_psd K U n : pos_semidef n (gram K U).
Proof. intros v. rewrite gram_quad. apply Sum_nonneg. intros. apply pow2_ge_0. Qed.

Lemma mtm_xm r c c' A B : mtm xops (xm r c A) (xm r c' B) = Ret (xm c c' (fun a b => Sum r (fun i => A i a * B i b))).
Proof.
  unfold mtm. change (mnr (xm r c A)) with r. change (mnr (xm r c' B)) with r. rewrite Nat.eqb_refl.
  change (mnc (xm r c A)) with c. change (mnc (xm r c' B)) with c'. unfold xm. rewrite !cols_tabm, map_tab. unfold tabm. do 2 f_equal.
  apply tab_ext. intros a _. rewrite map_tab. apply tab_ext. intros b _. cbn [gdot xops]. apply xdot_tab.
Qed.

(** everything up to the call of the linear solver *)
Lemma anderson_prefix K width H :
  anderson_point xops (xm (S K) width H) width K =
  (_res <- solve_lin_sys xops (xm width width (gram K (diffs_of H))) (xv K (fun _ => 1)) ;;
   match _res with
   | Err _ => Ret None
   | Ok z =>
       let s := nsum xops z in
       let c := map (fun zi => fdiv xops zi s) z in
       pt <- foldM (vadd xops)
               (map2 (fun row c_k => map (fun x => fmul xops x c_k) row) (tab K (fun k => xv width (H k))) c)
               (vzeros xops width) ;;
       Ret (Some pt)
   end).
Proof.
  unfold anderson_point. change (mrows (xm (S K) width H)) with (tab (S K) (fun i => xv width (H i))).
  rewrite firstn_tab by lia. rewrite skipn1_tab, combine_tab.
  rewrite (mapM_tab _ K _ (fun k => xv width (diffs_of H k))).
  2:{ intros k Hk. cbn [fst snd]. unfold vsub, vbin. rewrite !xv_length, Nat.eqb_refl. unfold xv. rewrite map2_tab. reflexivity. }
  cbn [bind]. unfold xv at 1. rewrite (reshape_concat_tab K width (fun k b => Fin (diffs_of H k b))). cbn [bind].
  change (tabm K width (fun k b => Fin (diffs_of H k b))) with (xm K width (diffs_of H)).
  rewrite mtm_xm. cbn [bind]. rewrite repeat_tab. reflexivity.
Qed.

Definition affine_point (K width : nat) (H : rmat) (pt : list xr) : Prop :=
  exists c, Sum K c = 1 /\ pt = xv width (fun b => Sum K (fun k => c k * H k b)).
Lemma anderson_point_res K width H : (1 <= K <= width)%nat ->
  anderson_point xops (xm (S K) width H) width K = Ret None \/
  exists pt, anderson_point xops (xm (S K) width H) width K = Ret (Some pt) /\ affine_point K width H pt.
Proof.
  intros [HK Hw]. rewrite anderson_prefix.
  set (G := gram K (diffs_of H)).
  destruct (psd_result K width width G (fun _ => 1)) as [E|(x & E & Hx)]; auto; try apply gram_sym; try apply gram_psd.
  - left. rewrite E. reflexivity.
  - right. rewrite E. cbn [bind]. cbv zeta.
    assert (Hsol : solves K G (fun _ => 1) x) by (apply Hx; intros i _; reflexivity).
    assert (Hq : quad K G x = Sum K x).
    { apply Sum_ext. intros r Hr. rewrite Hsol by auto. ring. }
    assert (Hs : Sum K x <> 0).
    { intros E0. assert (Z := psd_kernel K G x (gram_sym _ _ _) (gram_psd _ _ _) ltac:(rewrite Hq; lra)).
      specialize (Z 0%nat ltac:(lia)). rewrite Hsol in Z by lia. lra. }
    cbn [nsum xops]. unfold xv at 2 3. rewrite xsum_tab.
    rewrite map_tab.
    rewrite (tab_ext K (fun i => fdiv xops (Fin (x i)) (Fin (Sum K x))) (fun i => Fin (x i / Sum K x))) by (intros; apply xdiv_fin; auto).
    rewrite map2_tab, vzeros_xv.
    set (c := fun k => x k / Sum K x).
    assert (F : forall m, (m <= K)%nat -> foldM (vadd xops) (tab m (fun i => map (fun x0 => fmul xops x0 (Fin (c i))) (xv width (H i)))) (xv width (fun _ => 0))
              = Ret (xv width (fun b => Sum m (fun k => c k * H k b)))).
    { induction m as [|m IH]; intros Hm.
      - simpl. f_equal.
      - rewrite tab_S, foldM_app, IH by lia. cbn [bind foldM]. unfold vadd, vbin. rewrite map_length, !xv_length, Nat.eqb_refl. cbn [bind].
        f_equal. unfold xv. rewrite map_tab, map2_tab. apply tab_ext. intros b _. cbn [fmul fadd xops xmul xadd]. f_equal. rewrite Sum_S. ring. }
    rewrite F by lia. cbn [bind]. eexists. split; [reflexivity|]. exists c. split; [|reflexivity].
    unfold c. rewrite Sum_div. field. auto.
Qed.
