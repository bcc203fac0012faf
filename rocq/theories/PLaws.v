(** The float laws used by statements about any arithmetic hold for the extended reals and for
    IEEE floats; a concrete sort satisfies [valid_sort]. *)
From Coq Require Import List ZArith Bool Arith Reals Lra Lia Permutation Sorted.
From Flocq Require Import Core BinarySingleNaN.
From Verif Require Import Ops Arr XR IEEE PBase SpecSolve.
Import ListNotations.
Local Open Scope nat_scope.

Lemma xr_laws : float_laws xops.
Proof.
  split; try reflexivity.
  - intros [r| | |]; reflexivity.
  - cbn. apply Reqb_refl.
Qed.

Section I.
Context (prec emax : Z) (Hp : Prec_gt_0 prec) (Hm : Prec_lt_emax prec emax).
Local Notation bf := (binary_float prec emax).
Definition key (x : bf) : xr :=
  match x with
  | B754_nan => NaN
  | B754_infinity s => if s then NInf else PInf
  | _ => Fin (B2R x)
  end.
Lemma key_fin x : is_finite x = true -> key x = Fin (B2R x).
Proof. destruct x; simpl; auto; discriminate. Qed.
Lemma key_nan x : xisnan (key x) = is_nan x.
Proof. destruct x as [s|[]| |]; reflexivity. Qed.
Lemma Rlt_bool_b a b : Rlt_bool a b = Rltb a b.
Proof. unfold Rltb. destruct (Rlt_dec a b); [apply Rlt_bool_true|apply Rlt_bool_false]; lra. Qed.
Lemma Rle_bool_b a b : Rle_bool a b = Rleb a b.
Proof. unfold Rleb. destruct (Rle_dec a b); [apply Rle_bool_true|apply Rle_bool_false]; lra. Qed.
Lemma Req_bool_b a b : Req_bool a b = Reqb a b.
Proof. unfold Reqb. destruct (Req_EM_T a b); [apply Req_bool_true|apply Req_bool_false]; lra. Qed.
Lemma key_lt (x y : bf) : Bltb x y = xlt (key x) (key y).
Proof.
  destruct (is_finite x) eqn:Ex; [destruct (is_finite y) eqn:Ey|].
  - rewrite (key_fin x Ex), (key_fin y Ey). cbn [xlt]. rewrite Bltb_correct by auto. apply Rlt_bool_b.
  - rewrite (key_fin x Ex). destruct y as [s|[]| |]; try discriminate; destruct x as [s'|[]| |[]]; try discriminate; reflexivity.
  - destruct x as [s|[]| |]; try discriminate; destruct y as [s'|[]| |[]]; try reflexivity.
Qed.
Lemma key_le (x y : bf) : Bleb x y = xle (key x) (key y).
Proof.
  destruct (is_finite x) eqn:Ex; [destruct (is_finite y) eqn:Ey|].
  - rewrite (key_fin x Ex), (key_fin y Ey). cbn [xle]. rewrite Bleb_correct by auto. apply Rle_bool_b.
  - rewrite (key_fin x Ex). destruct y as [s|[]| |]; try discriminate; destruct x as [s'|[]| |[]]; try discriminate; reflexivity.
  - destruct x as [s|[]| |]; try discriminate; destruct y as [s'|[]| |[]]; try reflexivity.
Qed.
Lemma key_eq (x y : bf) : Beqb x y = xeq (key x) (key y).
Proof.
  destruct (is_finite x) eqn:Ex; [destruct (is_finite y) eqn:Ey|].
  - rewrite (key_fin x Ex), (key_fin y Ey). cbn [xeq]. rewrite Beqb_correct by auto. apply Req_bool_b.
  - rewrite (key_fin x Ex). destruct y as [s|[]| |]; try discriminate; destruct x as [s'|[]| |[]]; try discriminate; reflexivity.
  - destruct x as [s|[]| |]; try discriminate; destruct y as [s'|[]| |[]]; try reflexivity.
Qed.
Lemma ieee_laws m : float_laws (ieee_ops prec emax Hp Hm m).
Proof.
  split; try reflexivity.
  intros x. cbn [fmax f0 ieee_ops fisnan]. unfold bmax. cbn [is_nan bzero]. destruct (is_nan x) eqn:E; [reflexivity|]. destruct (Bltb _ x); [auto|reflexivity].
Qed.
End I.

(** *** a concrete sort *)
Section Sort.
Context {F : Type} (o : FOps F).
Definition at_ (l : list F) (i : nat) : F := nth i l (f0 o).
Fixpoint ins (l : list F) (k : nat) (is : list nat) : list nat :=
  match is with
  | [] => [k]
  | a :: r => if flt o (at_ l k) (at_ l a) then a :: ins l k r else k :: a :: r
  end.
Definition dsort (l : list F) : list nat := fold_right (ins l) [] (seq 0 (length l)).
Definition order_laws : Prop :=
  (forall x y, fisnan o x = false -> fisnan o y = false -> flt o x y = true -> flt o y x = false) /\
  (forall x y z, fisnan o x = false -> fisnan o y = false -> fisnan o z = false ->
    flt o x y = false -> flt o y z = false -> flt o x z = false).
Lemma ins_perm l k is : Permutation (ins l k is) (k :: is).
Proof.
  induction is as [|a r IH]; simpl; auto. destruct (flt o _ _); auto.
  eapply perm_trans; [apply perm_skip, IH|apply perm_swap].
Qed.
Lemma dsort_perm l : Permutation (dsort l) (seq 0 (length l)).
Proof.
  unfold dsort. induction (seq 0 (length l)) as [|a r IH]; simpl; auto.
  eapply perm_trans; [apply ins_perm|]. apply perm_skip. auto.
Qed.
Definition desc (l : list F) (a b : nat) : Prop := flt o (at_ l a) (at_ l b) = false.
Lemma ins_sorted (OL : order_laws) l k is : (forall i, i < length l -> fisnan o (at_ l i) = false) ->
  k < length l -> (forall i, In i is -> i < length l) -> StronglySorted (desc l) is -> StronglySorted (desc l) (ins l k is).
Proof.
  destruct OL as [O1 O2]. intros HN Hk. induction is as [|a r IH]; intros Hin HS; simpl.
  - repeat constructor.
  - inversion HS as [|? ? HS' HF]; subst. rewrite Forall_forall in HF. destruct (flt o (at_ l k) (at_ l a)) eqn:E.
    + constructor; [apply IH; auto; intros; apply Hin; right; auto|]. apply Forall_forall. intros x Hx.
      apply (Permutation_in _ (ins_perm l k r)) in Hx. destruct Hx as [<-|Hx]; [|apply HF; auto]. red. apply O1; auto. apply HN, Hin. left; auto.
    + constructor; auto. apply Forall_forall. intros x [<-|Hx]; [exact E|]. red. apply (O2 _ (at_ l a)); auto; [apply HN, Hin; left; auto|apply HN, Hin; right; auto|apply HF; auto].
Qed.
Lemma dsort_sorted (OL : order_laws) l : (forall i, i < length l -> fisnan o (at_ l i) = false) -> StronglySorted (desc l) (dsort l).
Proof.
  intros HN. unfold dsort. assert (H : forall i, In i (seq 0 (length l)) -> i < length l) by (intros i Hi; apply in_seq in Hi; lia).
  revert H. generalize (seq 0 (length l)) as is. induction is as [|a r IH]; intros H; simpl; [constructor|].
  apply ins_sorted; auto.
  - apply H; left; auto.
  - intros i Hi. assert (P : Permutation (fold_right (ins l) [] r) r).
    { clear. induction r; simpl; auto. eapply perm_trans; [apply ins_perm|]. apply perm_skip; auto. }
    apply (Permutation_in _ P) in Hi. apply H; right; auto.
  - apply IH. intros; apply H; right; auto.
Qed.
Lemma sorted_nth l is : StronglySorted (desc l) is -> forall a b, a < b < length is -> desc l (nth a is 0) (nth b is 0).
Proof.
  induction 1 as [|x r HS IH HF]; intros a b Hab; simpl in Hab; [lia|]. destruct a as [|a], b as [|b]; simpl; try lia.
  - rewrite Forall_forall in HF. apply HF, nth_In. lia.
  - apply IH. lia.
Qed.
Lemma dsort_valid : order_laws -> valid_sort o dsort.
Proof.
  intros OL l HN. split; [apply dsort_perm|]. intros a b x y Hab Ex Ey.
  assert (HN' : forall i, i < length l -> fisnan o (at_ l i) = false).
  { intros i Hi. destruct (fisnan o (at_ l i)) eqn:E; auto. assert (existsb (fisnan o) l = true); [|congruence].
    apply existsb_exists. exists (at_ l i). split; auto. apply nth_In. auto. }
  assert (HL : length (dsort l) = length l) by (rewrite (Permutation_length (dsort_perm l)), seq_length; auto).
  pose proof (sorted_nth _ _ (dsort_sorted OL l HN') a b) as H. rewrite HL in H. specialize (H Hab). unfold desc, at_ in H.
  rewrite (nth_error_nth _ _ _ Ex), (nth_error_nth _ _ _ Ey) in H. exact H.
Qed.
End Sort.
Lemma xr_asym x y : xisnan x = false -> xisnan y = false -> xlt x y = true -> xlt y x = false.
Proof. destruct x as [a| | |], y as [b| | |]; simpl; try discriminate; auto. intros _ _ H. rb. apply Rltb_false. lra. Qed.
Lemma xr_negtrans x y z : xisnan x = false -> xisnan y = false -> xisnan z = false -> xlt x y = false -> xlt y z = false -> xlt x z = false.
Proof. destruct x as [a| | |], y as [b| | |], z as [c| | |]; simpl; try discriminate; auto. intros _ _ _ H1 H2. rb. apply Rltb_false. lra. Qed.
Lemma xr_order : order_laws xops.
Proof. split; [exact xr_asym|exact xr_negtrans]. Qed.
Lemma xr_sort : valid_sort xops (dsort xops).
Proof. apply dsort_valid, xr_order. Qed.
Section I2.
Context (prec emax : Z) (Hp : Prec_gt_0 prec) (Hm : Prec_lt_emax prec emax).
Lemma ieee_order m : order_laws (ieee_ops prec emax Hp Hm m).
Proof.
  split; cbn [fisnan flt ieee_ops].
  - intros x y Hx Hy. rewrite !key_lt. apply xr_asym; rewrite key_nan; auto.
  - intros x y z Hx Hy Hz. rewrite !key_lt. apply xr_negtrans; rewrite key_nan; auto.
Qed.
Lemma ieee_sort m : valid_sort (ieee_ops prec emax Hp Hm m) (dsort (ieee_ops prec emax Hp Hm m)).
Proof. apply dsort_valid, ieee_order. Qed.
End I2.
