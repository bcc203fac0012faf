(** [solve_lin_sys] in exact arithmetic. *)
From Coq Require Import List ZArith Bool Arith Reals Lra Lia Classical.
From Verif Require Import Ops Arr MUtils XR PBase RSum SpecLin.
Import ListNotations.
Open Scope R_scope.

Lemma xm_ext r c M M' : (forall i j, (i < r)%nat -> (j < c)%nat -> M i j = M' i j) -> xm r c M = xm r c M'.
Proof. intros H. apply tabm_ext. intros. rewrite H; auto. Qed.

Lemma mget_xm r c M i j : (i < r)%nat -> (j < c)%nat -> mget (xm r c M) i j = Ret (Fin (M i j)).
Proof. intros. unfold xm. rewrite mget_tabm by lia. reflexivity. Qed.
Lemma mset_xm r c M i j v : (i < r)%nat -> (j < c)%nat ->
  mset (xm r c M) i j (Fin v) = Ret (xm r c (fun a b => if (a =? i) && (b =? j) then v else M a b)).
Proof.
  intros. unfold xm. rewrite mset_tabm by lia. f_equal. apply tabm_ext. intros. destruct (_ && _); reflexivity.
Qed.

(** *** elimination steps on functions *)
Definition fstep (i : nat) (M : rmat) : rmat :=
  if Req_EM_T (M i i) 0 then M
  else fun r k => if (i <? r) && (i <=? k) then M r k - M r i / M i i * M i k else M r k.
Definition bstep (i : nat) (M : rmat) : rmat :=
  if Req_EM_T (M i i) 0 then M
  else fun r k => if (r <? i) then M r k - M r i / M i i * M i k else M r k.

Lemma xeq_fin0 a : xeq (Fin a) (Fin 0) = if Req_EM_T a 0 then true else false.
Proof. reflexivity. Qed.

Section Refine.
Context (S : nat).
Local Notation X := (xm S (Datatypes.S S)).

Lemma row_sub_fin dst src f ks M : (dst < S)%nat -> (src < S)%nat -> dst <> src -> NoDup ks ->
  (forall k, In k ks -> (k <= S)%nat) ->
  row_sub xops dst src (Fin f) ks (X M)
  = Ret (X (fun r k => if (r =? dst) && existsb (Nat.eqb k) ks then M r k - f * M src k else M r k)).
Proof.
  intros Hd Hs Hne Hnd. unfold row_sub. revert M. induction Hnd as [|k ks Hk Hnd IH]; intros M Hin; cbn [foldM].
  - f_equal. apply xm_ext. intros. rewrite andb_false_r. reflexivity.
  - assert (k <= S)%nat by (apply Hin; simpl; auto).
    rewrite mget_xm by lia. cbn [bind]. rewrite mget_xm by lia. cbn [bind fsub fmul xops xmul xsub].
    rewrite mset_xm by lia. cbn [bind].
    rewrite IH by (intros; apply Hin; simpl; auto). f_equal. apply xm_ext. intros r c Hr Hc. simpl.
    assert (E : (src =? dst) = false) by (apply Nat.eqb_neq; auto). rewrite E. simpl.
    destruct (r =? dst) eqn:Er; simpl; auto. apply Nat.eqb_eq in Er. subst r.
    destruct (c =? k) eqn:Ec; simpl; auto. apply Nat.eqb_eq in Ec. subst c.
    assert (E2 : existsb (Nat.eqb k) ks = false).
    { apply not_true_is_false. intros H1. apply existsb_exists in H1. destruct H1 as (x & Hx & Hx').
      apply Nat.eqb_eq in Hx'. subst. contradiction. }
    rewrite E2. reflexivity.
Qed.

(** one outer step of the forward pass *)
Lemma fwd_inner M i last : Datatypes.S last = S -> (i < last)%nat ->
  foldM (fun sys j =>
      piv <- mget sys i i ;;
      if feq xops piv (f0 xops) then Ret sys
      else
        e <- mget sys (Datatypes.S j) i ;;
        row_sub xops (Datatypes.S j) i (fdiv xops e piv) (seq i (Datatypes.S S - i)) sys)
      (seq i (last - i)) (X M) = Ret (X (fstep i M)).
Proof.
  intros HS Hi. unfold fstep. destruct (Req_EM_T (M i i) 0) as [E|E].
  - rewrite (foldM_seq _ (fun _ => X M)); auto. intros j Hj. rewrite mget_xm by lia. cbn [bind feq f0 xops].
    rewrite E. cbn. rewrite Reqb_refl. reflexivity.
  - set (st := fun j => X (fun r k => if (i <? r) && (r <=? j) && (i <=? k) then M r k - M r i / M i i * M i k else M r k)).
    assert (H0 : X M = st i).
    { unfold st. apply xm_ext. intros r k Hr Hk. destruct (i <? r) eqn:E1; simpl; auto.
      apply Nat.ltb_lt in E1. rewrite (proj2 (Nat.leb_gt r i)) by lia. reflexivity. }
    rewrite H0. rewrite (foldM_seq _ st).
    + f_equal. unfold st. replace (i + (last - i))%nat with last by lia. apply xm_ext. intros r k Hr Hk.
      rewrite (proj2 (Nat.leb_le r last)) by lia. rewrite andb_true_r. reflexivity.
    + intros j Hj. unfold st at 1. cbv beta. rewrite mget_xm by lia. cbn [bind].
      rewrite (proj2 (Nat.ltb_ge i i)) by lia. cbn [andb]. cbn [feq f0 xops xeq].
      rewrite (proj2 (Reqb_false (M i i) 0)) by auto.
      unfold st at 1. rewrite mget_xm by lia. cbn [bind]. unfold st at 1.
      rewrite (proj2 (Nat.leb_gt (Datatypes.S j) j)) by lia. rewrite andb_false_r. cbn [andb]. cbn [fdiv xops]. rewrite xdiv_fin by auto.
      rewrite row_sub_fin; try lia; [|apply seq_NoDup|intros k Hk; apply in_seq in Hk; lia].
      unfold st. f_equal. apply xm_ext. intros r k Hr Hk. rewrite (proj2 (Nat.ltb_ge i i)) by lia. cbn [andb].
      destruct (r =? Datatypes.S j) eqn:Er.
      * apply Nat.eqb_eq in Er. subst r. rewrite (proj2 (Nat.leb_gt (Datatypes.S j) j)) by lia. rewrite andb_false_r. cbn [andb].
        rewrite (proj2 (Nat.ltb_lt i (Datatypes.S j))) by lia. change (1 + j)%nat with (Datatypes.S j). rewrite Nat.leb_refl. cbn [andb].
        destruct (i <=? k) eqn:Ek.
        -- assert (Ex : existsb (Nat.eqb k) (seq i (Datatypes.S S - i)) = true).
           { apply existsb_exists. exists k. split; [apply in_seq; apply Nat.leb_le in Ek; lia|apply Nat.eqb_refl]. }
           rewrite Ex. reflexivity.
        -- assert (Ex : existsb (Nat.eqb k) (seq i (Datatypes.S S - i)) = false).
           { apply not_true_is_false. intros Hx. apply existsb_exists in Hx. destruct Hx as (x & Hx & Hx').
             apply in_seq in Hx. apply Nat.eqb_eq in Hx'. apply Nat.leb_gt in Ek. lia. }
           rewrite Ex. reflexivity.
      * apply Nat.eqb_neq in Er. cbn [andb].
        destruct (Nat.leb_spec r j), (Nat.leb_spec r (1 + j)); try lia; reflexivity.
Qed.
Lemma fwd_fin last M : Datatypes.S last = S ->
  sls_forward xops S last (X M) = Ret (X (fold_left (fun M i => fstep i M) (seq 0 last) M)).
Proof.
  intros HS. unfold sls_forward. apply (foldM_rep X). intros M' i Hi. apply in_seq in Hi. apply fwd_inner; auto. lia.
Qed.

Lemma bwd_inner M i : (1 <= i < S)%nat -> M i i <> 0 ->
  foldM (fun sys j =>
        piv' <- mget sys i i ;;
        e <- mget sys (j - 1)%nat i ;;
        row_sub xops (j - 1) i (fdiv xops e piv') (rev (seq 0 (Datatypes.S S))) sys)
        (rev (seq 1 i)) (X M) = Ret (X (bstep i M)).
Proof.
  intros Hi E. unfold bstep. destruct (Req_EM_T (M i i) 0) as [|_]; [contradiction|].
  set (st' := fun j => X (fun r k => if (r <? i) && (j <=? Datatypes.S r) then M r k - M r i / M i i * M i k else M r k)).
  replace (X M) with (st' (1 + i)%nat).
  2:{ unfold st'. apply xm_ext. intros r k Hr Hk. destruct (Nat.ltb_spec r i); cbn [andb]; auto.
      rewrite (proj2 (Nat.leb_gt (1 + i) (Datatypes.S r))) by lia. reflexivity. }
  rewrite (foldM_rev_seq _ st').
  - f_equal. unfold st'. apply xm_ext. intros r k Hr Hk. rewrite (proj2 (Nat.leb_le 1 (Datatypes.S r))) by lia. rewrite andb_true_r. reflexivity.
  - intros j Hj. unfold st' at 1. rewrite mget_xm by lia. cbn [bind]. unfold st' at 1. rewrite mget_xm by lia. cbn [bind]. unfold st' at 1.
    rewrite (proj2 (Nat.ltb_ge i i)) by lia. cbn [andb].
    rewrite (proj2 (Nat.leb_gt (1 + j) (Datatypes.S (j - 1)))) by lia. rewrite andb_false_r. cbn [fdiv xops]. rewrite xdiv_fin by auto.
    rewrite row_sub_fin; try lia; [|apply NoDup_rev, seq_NoDup|intros k Hk; rewrite <- in_rev in Hk; apply in_seq in Hk; lia].
    unfold st'. f_equal. apply xm_ext. intros r k Hr Hk. rewrite (proj2 (Nat.ltb_ge i i)) by lia. cbn [andb].
    assert (Ex : existsb (Nat.eqb k) (rev (seq 0 (Datatypes.S S))) = true).
    { apply existsb_exists. exists k. split; [rewrite <- in_rev; apply in_seq; lia|apply Nat.eqb_refl]. }
    rewrite Ex, andb_true_r.
    destruct (Nat.eqb_spec r (j - 1)).
    + subst r. rewrite (proj2 (Nat.leb_gt (1 + j) (Datatypes.S (j - 1)))) by lia. rewrite andb_false_r.
      rewrite (proj2 (Nat.ltb_lt (j - 1) i)), (proj2 (Nat.leb_le j (Datatypes.S (j - 1)))) by lia. reflexivity.
    + destruct (Nat.leb_spec (1 + j) (Datatypes.S r)), (Nat.leb_spec j (Datatypes.S r)); try lia; reflexivity.
Qed.
Lemma bwd_fin last M : Datatypes.S last = S ->
  sls_backward xops S last (X M) = Ret (X (fold_left (fun M i => bstep i M) (rev (seq 1 last)) M)).
Proof.
  intros HS. unfold sls_backward. apply (foldM_rep X). intros M' i Hi. rewrite <- in_rev in Hi. apply in_seq in Hi.
  rewrite mget_xm by lia. cbn [bind feq f0 xops xeq].
  destruct (Reqb (M' i i) 0) eqn:E; rb.
  - unfold bstep. destruct (Req_EM_T (M' i i) 0); [reflexivity|contradiction].
  - apply bwd_inner; auto. lia.
Qed.

Definition first_zero (M : rmat) (is : list nat) : bool := existsb (fun i => Reqb (M i i) 0) is.
Lemma extract_fin M n : forall s g, (s + n <= S)%nat ->
  (forall r k, (s <= r)%nat -> M r k = M r k) ->
  sls_extract xops S (seq s n) (X M) (tab S (fun i => Fin (g i)))
  = Ret (if first_zero M (seq s n) then Err SingularMatrix
         else Ok (tab S (fun i => Fin (if (s <=? i) && (i <? s + n) then M i S / M i i else g i)))).
Proof.
  revert M. induction n as [|n IH]; intros M s g Hs _.
  - cbn [seq sls_extract]. simpl. f_equal. f_equal. apply tab_ext. intros i Hi. f_equal.
    destruct (Nat.leb_spec s i), (Nat.ltb_spec i (s + 0)); simpl; auto; lia.
  - cbn [seq sls_extract]. unfold xm at 1. rewrite mget_tabm by lia. cbn [bind feq f0 xops xeq].
    unfold first_zero. cbn [existsb]. destruct (Reqb (M s s) 0) eqn:E; [reflexivity|]. rb. cbn [orb].
    rewrite mget_xm by lia. cbn [bind fdiv xops]. rewrite xdiv_fin by auto.
    rewrite mset_xm by lia. cbn [bind f1 xops]. rewrite mset_xm by lia. cbn [bind].
    rewrite mget_xm by lia. cbn [bind]. rewrite Nat.eqb_refl. assert (Es : (S =? s) = false) by (apply Nat.eqb_neq; lia).
    rewrite Es, Nat.eqb_refl. cbn [andb]. rewrite vset_tab by lia. cbn [bind f1 xops].
    set (M1 := fun a b => if (a =? s) && (b =? s) then 1 else if (a =? s) && (b =? S) then M s S / M s s else M a b).
    fold M1.
    replace (tab S _) with (tab S (fun k => Fin (if k =? s then M s S / M s s else g k))).
    2:{ apply tab_ext. intros k Hk. destruct (k =? s); auto. }
    rewrite (IH M1 (Datatypes.S s)); [|lia|auto].
    assert (Hoff : forall r k, (s < r)%nat -> M1 r k = M r k).
    { intros r k Hr. unfold M1. rewrite (proj2 (Nat.eqb_neq r s)) by lia. reflexivity. }
    f_equal. replace (first_zero M1 (seq (Datatypes.S s) n)) with (existsb (fun i => Reqb (M i i) 0) (seq (Datatypes.S s) n)).
    2:{ unfold first_zero. assert (Hall : forall i, In i (seq (Datatypes.S s) n) -> (s < i)%nat) by (intros i Hi; apply in_seq in Hi; lia).
        revert Hall. generalize (seq (Datatypes.S s) n). induction l as [|a l IHl]; intros Hall; simpl; auto.
        rewrite IHl by (intros; apply Hall; simpl; auto). rewrite Hoff by (apply Hall; simpl; auto). reflexivity. }
    destruct (existsb _ _); auto. f_equal. apply tab_ext. intros i Hi. f_equal.
    destruct (Nat.leb_spec (Datatypes.S s) i).
    + rewrite (proj2 (Nat.leb_le s i)) by lia. cbn [andb].
      replace (i <? s + Datatypes.S n) with (i <? Datatypes.S s + n) by (f_equal; lia).
      rewrite !Hoff by lia. rewrite (proj2 (Nat.eqb_neq i s)) by lia. reflexivity.
    + cbn [andb]. destruct (Nat.eqb_spec i s).
      * subst. rewrite Nat.leb_refl, (proj2 (Nat.ltb_lt s (s + Datatypes.S n))) by lia. reflexivity.
      * rewrite (proj2 (Nat.leb_gt s i)) by lia. reflexivity.
Qed.

Lemma fill_fin ra ca A b : (S <= ra)%nat -> (S <= ca)%nat ->
  sls_fill xops (xm ra ca A) (tab S (fun i => Fin (b i))) S
  = Ret (X (fun i j => if j =? S then b i else A i j)).
Proof.
  intros Hr Hc. unfold sls_fill.
  set (T := fun i j => if j =? S then b i else A i j).
  set (st := fun i => X (fun r k => if r <? i then T r k else 0)).
  replace (mzeros xops S (Datatypes.S S)) with (st 0%nat).
  2:{ unfold st, mzeros. rewrite mfill_tabm. reflexivity. }
  rewrite (foldM_seq _ st).
  - unfold st. f_equal. apply xm_ext. intros r k Hr' Hk'. rewrite (proj2 (Nat.ltb_lt r (0 + S))) by lia. reflexivity.
  - intros i Hi. simpl in Hi.
    set (st2 := fun j => X (fun r k => if (r <? i) || ((r =? i) && (k <? j)) then T r k else 0)).
    replace (st i) with (st2 0%nat).
    2:{ unfold st, st2. apply xm_ext. intros. rewrite andb_false_r, orb_false_r. reflexivity. }
    rewrite (foldM_seq _ st2).
    + unfold st, st2. f_equal. apply xm_ext. intros r k Hr' Hk'. rewrite (proj2 (Nat.ltb_lt k (0 + Datatypes.S S))) by lia.
      rewrite andb_true_r. destruct (Nat.ltb_spec r i), (Nat.eqb_spec r i), (Nat.ltb_spec r (1 + i)); try lia; reflexivity.
    + intros j Hj. simpl in Hj.
      assert (E : (if j =? S then vget (tab S (fun i => Fin (b i))) i else mget (xm ra ca A) i j) = Ret (Fin (T i j))).
      { unfold T. destruct (Nat.eqb_spec j S); [rewrite vget_tab by lia; reflexivity|]. unfold xm. rewrite mget_tabm by lia. reflexivity. }
      rewrite E. cbn [bind]. unfold st2 at 1. rewrite mset_xm by lia. f_equal. unfold st2. apply xm_ext.
      intros r k Hr' Hk'. destruct (Nat.eqb_spec r i), (Nat.eqb_spec k j); cbn [andb]; subst;
       rewrite ?(proj2 (Nat.ltb_lt j (1 + j))) by lia; rewrite ?orb_true_r; auto.
      rewrite (proj2 (Nat.ltb_ge i i)) by lia. cbn [orb]. destruct (Nat.ltb_spec k j), (Nat.ltb_spec k (1 + j)); try lia; reflexivity.
Qed.
End Refine.

(** *** the algebra of the elimination *)
Section Algebra.
Context (S : nat).
Definition sol (M : rmat) (x : nat -> R) : Prop :=
  forall r, (r < S)%nat -> Sum S (fun k => M r k * x k) = M r S.

(** trailing-block property preserved by elimination *)
Context (TP : nat -> rmat -> Prop).
Context (Hz : forall i M, (i < S)%nat -> TP i M -> M i i = 0 -> forall r, (i < r < S)%nat -> M r i = 0).
Context (Hs : forall i M, (i < S)%nat -> TP i M -> TP (Datatypes.S i) (fstep i M)).

Definition lower0 (i : nat) (M : rmat) : Prop := forall r k, (k < i)%nat -> (k < r < S)%nat -> M r k = 0.

Lemma fstep_lower i M : (i < S)%nat -> TP i M -> lower0 i M -> lower0 (Datatypes.S i) (fstep i M).
Proof.
  intros Hi HT HL r k Hk Hr. unfold fstep. destruct (Req_EM_T (M i i) 0) as [E|E].
  - destruct (Nat.eq_dec k i) as [->|]; [apply (Hz i M); auto|apply HL; lia].
  - destruct (Nat.eq_dec k i) as [->|].
    + rewrite (proj2 (Nat.ltb_lt i r)), Nat.leb_refl by lia. cbn [andb]. field. auto.
    + rewrite (proj2 (Nat.leb_gt i k)) by lia. rewrite andb_false_r. apply HL; lia.
Qed.
Lemma fstep_sol i M x : (i < S)%nat -> lower0 i M -> sol (fstep i M) x <-> sol M x.
Proof.
  intros Hi HL. unfold fstep. destruct (Req_EM_T (M i i) 0) as [E|E]; [tauto|].
  assert (Heq : forall r, (r < S)%nat -> (i < r)%nat ->
    Sum S (fun k => (if (i <? r) && (i <=? k) then M r k - M r i / M i i * M i k else M r k) * x k)
    = Sum S (fun k => M r k * x k) - M r i / M i i * Sum S (fun k => M i k * x k)).
  { intros r Hr Hir. rewrite <- Sum_scal, <- Sum_minus. apply Sum_ext. intros k Hk.
    rewrite (proj2 (Nat.ltb_lt i r)) by lia. cbn [andb]. destruct (Nat.leb_spec i k); [ring|].
    rewrite (HL i k) by lia. ring. }
  assert (Hlo : forall r, (r <= i)%nat -> forall k, (if (i <? r) && (i <=? k) then M r k - M r i / M i i * M i k else M r k) = M r k).
  { intros r Hr k. rewrite (proj2 (Nat.ltb_ge i r)) by lia. reflexivity. }
  assert (Hrow : forall r, (r <= i)%nat -> Sum S (fun k => (if (i <? r) && (i <=? k) then M r k - M r i / M i i * M i k else M r k) * x k)
        = Sum S (fun k => M r k * x k)).
  { intros r Hr. apply Sum_ext. intros. rewrite Hlo by auto. reflexivity. }
  unfold sol. split; intros H r Hr.
  - destruct (le_lt_dec r i).
    + specialize (H r Hr). rewrite Hrow, Hlo in H by auto. exact H.
    + pose proof (H i Hi) as Hi'. rewrite Hrow, Hlo in Hi' by auto.
      specialize (H r Hr). rewrite Heq in H by auto. rewrite (proj2 (Nat.ltb_lt i r)), (proj2 (Nat.leb_le i S)) in H by lia.
      cbn [andb] in H. rewrite Hi' in H. lra.
  - destruct (le_lt_dec r i).
    + rewrite Hrow, Hlo by auto. apply H; auto.
    + rewrite Heq by auto. rewrite (proj2 (Nat.ltb_lt i r)), (proj2 (Nat.leb_le i S)) by lia. cbn [andb].
      rewrite (H i Hi), (H r Hr). lra.
Qed.
Lemma fstep_row i M r k : (r <= i)%nat -> fstep i M r k = M r k.
Proof.
  intros H. unfold fstep. destruct (Req_EM_T _ _); auto. rewrite (proj2 (Nat.ltb_ge i r)) by lia. reflexivity.
Qed.

Lemma fwd_inv n M : (n <= S)%nat -> TP 0 M ->
  let M' := fold_left (fun M i => fstep i M) (seq 0 n) M in
  TP n M' /\ lower0 n M' /\ (forall x, sol M' x <-> sol M x).
Proof.
  intros Hn H0. induction n as [|n IH].
  - simpl. repeat split; auto. intros r k Hk. lia.
  - rewrite seq_S, fold_left_app. simpl. destruct IH as (H1 & H2 & H3); [lia|].
    split; [apply Hs; auto|]. split; [apply fstep_lower; auto|]. intros x. rewrite fstep_sol; auto.
Qed.

(** backward pass on an upper triangular matrix *)
Definition upper0 (i : nat) (M : rmat) : Prop := forall r k, (i <= k < S)%nat -> (r < k)%nat -> M r k = 0.
Lemma bstep_inv i M : (1 <= i < S)%nat -> lower0 S M ->
  lower0 S (bstep i M) /\ (forall r, (r < S)%nat -> bstep i M r r = M r r) /\ (forall x, sol (bstep i M) x <-> sol M x) /\
  (M i i <> 0 -> upper0 (Datatypes.S i) M -> upper0 i (bstep i M)).
Proof.
  intros Hi HL. unfold bstep. destruct (Req_EM_T (M i i) 0) as [E|E].
  - repeat split; auto; try tauto. 
  - assert (Hrow : forall r k, (i <= r)%nat -> (if r <? i then M r k - M r i / M i i * M i k else M r k) = M r k).
    { intros r k Hr. rewrite (proj2 (Nat.ltb_ge r i)) by lia. reflexivity. }
    assert (Hlo : forall r k, (r < i)%nat -> (if r <? i then M r k - M r i / M i i * M i k else M r k) = M r k - M r i / M i i * M i k).
    { intros r k Hr. rewrite (proj2 (Nat.ltb_lt r i)) by lia. reflexivity. }
    split; [|split; [|split]].
    + intros r k Hk Hr. destruct (le_lt_dec i r); [rewrite Hrow by auto; apply HL; lia|].
      rewrite Hlo by auto. rewrite (HL r k), (HL i k) by lia. ring.
    + intros r Hr. destruct (le_lt_dec i r); [rewrite Hrow by auto; auto|]. rewrite Hlo by auto. rewrite (HL i r) by lia. ring.
    + intros x. assert (Hsum : forall r, (r < i)%nat -> Sum S (fun k => (if r <? i then M r k - M r i / M i i * M i k else M r k) * x k)
          = Sum S (fun k => M r k * x k) - M r i / M i i * Sum S (fun k => M i k * x k)).
      { intros r Hr. rewrite <- Sum_scal, <- Sum_minus. apply Sum_ext. intros k Hk. rewrite Hlo by auto. ring. }
      assert (Hsum2 : forall r, (i <= r)%nat -> Sum S (fun k => (if r <? i then M r k - M r i / M i i * M i k else M r k) * x k)
          = Sum S (fun k => M r k * x k)).
      { intros r Hr. apply Sum_ext. intros. rewrite Hrow by auto. reflexivity. }
      unfold sol. split; intros H r Hr.
      * pose proof (H i ltac:(lia)) as Hi'. rewrite Hsum2, Hrow in Hi' by lia. specialize (H r Hr).
        destruct (le_lt_dec i r); [rewrite Hsum2, Hrow in H by auto; auto|]. rewrite Hsum, Hlo, Hi' in H by auto. lra.
      * destruct (le_lt_dec i r); [rewrite Hsum2, Hrow by auto; auto|]. rewrite Hsum, Hlo by auto.
        rewrite (H i), (H r) by lia. lra.
    + intros _ HU r k Hk Hr. destruct (Nat.eq_dec k i) as [->|].
      * rewrite Hlo by auto. field; auto.
      * destruct (le_lt_dec i r); [rewrite Hrow by auto; apply HU; lia|]. rewrite Hlo by auto.
        rewrite (HU r k), (HU i k) by lia. ring.
Qed.
Lemma bwd_inv n M : (1 + n = S)%nat -> lower0 S M -> forall m, (m <= n)%nat ->
  let M' := fold_left (fun M i => bstep i M) (rev (seq (1 + (n - m)) m)) M in
  lower0 S M' /\ (forall r, (r < S)%nat -> M' r r = M r r) /\ (forall x, sol M' x <-> sol M x) /\
  ((forall r, (r < S)%nat -> M r r <> 0) -> upper0 (1 + (n - m)) M').
Proof.
  intros Hn HL. induction m as [|m IH]; intros Hm.
  - simpl. repeat split; auto; try tauto. intros _ r k Hk Hr. lia.
  - cbv zeta. cbn [seq rev]. rewrite fold_left_app. cbn [fold_left].
    replace (Datatypes.S (1 + (n - Datatypes.S m))) with (1 + (n - m))%nat by lia.
    destruct IH as (H1 & H2 & H3 & H4); [lia|].
    set (M1 := fold_left (fun M i => bstep i M) (rev (seq (1 + (n - m)) m)) M) in *.
    destruct (bstep_inv (1 + (n - Datatypes.S m)) M1) as (G1 & G2 & G3 & G4); [lia|auto|].
    split; [exact G1|]. split; [intros r Hr; rewrite G2, H2; auto|]. split; [intros x; rewrite G3; auto|].
    intros Hnz. apply G4; [rewrite H2 by lia; apply Hnz; lia|].
    replace (Datatypes.S (1 + (n - Datatypes.S m))) with (1 + (n - m))%nat by lia. apply H4; auto.
Qed.
Lemma diag_sol M x : (1 <= S)%nat -> lower0 S M -> upper0 1 M -> (forall r, (r < S)%nat -> M r r <> 0) ->
  sol M x <-> (forall r, (r < S)%nat -> x r = M r S / M r r).
Proof.
  intros HS HL HU Hnz.
  assert (E : forall r, (r < S)%nat -> Sum S (fun k => M r k * x k) = M r r * x r).
  { intros r Hr. apply (Sum_single S (fun k => M r k * x k) r); auto. intros k Hk Hne.
    destruct (lt_dec k r); [rewrite HL by lia; ring|rewrite HU by lia; ring]. }
  unfold sol. split; intros H r Hr.
  - specialize (H r Hr). rewrite E in H by auto. rewrite <- H. field. auto.
  - rewrite E, H by auto. field. auto.
Qed.
End Algebra.

(** the result of the solver when the trailing-block property holds *)
Section Result.
Context (last : nat).
Local Notation S := (Datatypes.S last).
Context (TP : nat -> rmat -> Prop).
Context (Hz : forall i M, (i < S)%nat -> TP i M -> M i i = 0 -> forall r, (i < r < S)%nat -> M r i = 0).
Context (Hs : forall i M, (i < S)%nat -> TP i M -> TP (Datatypes.S i) (fstep i M)).

Definition aug (A : rmat) (b : nat -> R) : rmat := fun i j => if j =? S then b i else A i j.
Definition fwd (A : rmat) (b : nat -> R) : rmat := fold_left (fun M i => fstep i M) (seq 0 last) (aug A b).

Lemma sol_aug A b x : sol S (aug A b) x <-> (forall r, (r < S)%nat -> Sum S (fun k => A r k * x k) = b r).
Proof.
  unfold sol, aug. split; intros H r Hr; specialize (H r Hr); rewrite Nat.eqb_refl in *; rewrite <- H; apply Sum_ext; intros k Hk;
  rewrite (proj2 (Nat.eqb_neq k S)) by lia; reflexivity.
Qed.

Lemma solve_spec ra ca A b : (S <= ra)%nat -> (S <= ca)%nat -> TP 0 (aug A b) ->
  exists x, solve_lin_sys xops (xm ra ca A) (tab S (fun i => Fin (b i)))
    = Ret (if first_zero (fwd A b) (seq 0 S) then Err SingularMatrix else Ok (tab S (fun i => Fin (x i)))) /\
    (first_zero (fwd A b) (seq 0 S) = false ->
     forall y, (forall r, (r < S)%nat -> Sum S (fun k => A r k * y k) = b r) <-> (forall r, (r < S)%nat -> y r = x r)).
Proof.
  intros Hr Hc H0. unfold solve_lin_sys. rewrite tab_length. rewrite fill_fin by auto. cbn [bind].
  rewrite fwd_fin by reflexivity. cbn [bind]. rewrite bwd_fin by reflexivity. cbn [bind].
  unfold vzeros. rewrite repeat_tab. change (f0 xops) with (Fin 0).
  rewrite (extract_fin _ _ _ 0 (fun _ => 0)) by (auto; lia).
  fold (aug A b). fold (fwd A b).
  destruct (fwd_inv S TP Hz Hs last (aug A b)) as (F1 & F2 & F3); [lia|auto|]. fold (fwd A b) in F1, F2, F3.
  assert (F2' : lower0 S S (fwd A b)) by (intros r k Hk Hr'; apply F2; lia).
  destruct (bwd_inv S last (fwd A b) eq_refl F2' last) as (B1 & B2 & B3 & B4); [lia|].
  replace (1 + (last - last))%nat with 1%nat in * by lia.
  set (M := fold_left (fun M i => bstep i M) (rev (seq 1 last)) (fwd A b)) in *.
  exists (fun i => M i S / M i i). split.
  - f_equal. replace (first_zero M (seq 0 S)) with (first_zero (fwd A b) (seq 0 S)).
    + destruct (first_zero _ _); auto. f_equal. apply tab_ext. intros i Hi. rewrite (proj2 (Nat.ltb_lt i (0 + S))) by lia. reflexivity.
    + unfold first_zero. assert (Hall : forall i, In i (seq 0 S) -> (i < S)%nat) by (intros i Hi; apply in_seq in Hi; lia).
      revert Hall. generalize (seq 0 S). induction l as [|a l IHl]; intros Hall; simpl; auto.
      rewrite IHl by (intros; apply Hall; simpl; auto). rewrite B2 by (apply Hall; simpl; auto). reflexivity.
  - intros Hnz y.
    assert (Hd : forall r, (r < S)%nat -> fwd A b r r <> 0).
    { intros r Hr' E. unfold first_zero in Hnz. apply not_true_iff_false in Hnz. apply Hnz. apply existsb_exists.
      exists r. split; [apply in_seq; lia|]. apply Reqb_spec. auto. }
    rewrite <- sol_aug, <- F3, <- B3. apply diag_sol; auto; try lia. intros r Hr'. rewrite B2 by auto. auto.
Qed.
End Result.
