(** [solve_lin_sys] on LU-factorisable, positive definite and semidefinite systems; failures. *)
From Coq Require Import List ZArith Bool Arith Reals Lra Lia Classical.
From Verif Require Import Ops Arr MUtils XR PBase RSum SpecLin PLin PPenEx.
Import ListNotations.
Open Scope R_scope.

Lemma Sum_two n f i r : (i < n)%nat -> (r < n)%nat -> i <> r ->
  (forall k, (k < n)%nat -> k <> i -> k <> r -> f k = 0) -> Sum n f = f i + f r.
Proof.
  intros Hi Hr Hne H.
  rewrite (Sum_upd n f (fun k => if k =? r then f r else 0) i Hi).
  - rewrite (Sum_single n (fun k => if k =? r then f r else 0) r Hr).
    + rewrite Nat.eqb_refl, (proj2 (Nat.eqb_neq i r)) by auto. lra.
    + intros k Hk Hkr. rewrite (proj2 (Nat.eqb_neq k r)) by auto. reflexivity.
  - intros k Hk Hki. destruct (Nat.eqb_spec k r); [subst; reflexivity|]. apply H; auto.
Qed.

(** trailing blocks *)
Definition supp (i : nat) (v : nat -> R) : Prop := forall r, (r < i)%nat -> v r = 0.
Definition sym_from (n i : nat) (M : rmat) : Prop :=
  forall r k, (i <= r < n)%nat -> (i <= k < n)%nat -> M r k = M k r.
Definition psd_from n i M := sym_from n i M /\ forall v, supp i v -> 0 <= quad n M v.
Definition pd_from n i M := sym_from n i M /\
  forall v, supp i v -> (exists r, (r < n)%nat /\ v r <> 0) -> 0 < quad n M v.

Lemma quad_ext n M M' v : (forall r k, (r < n)%nat -> (k < n)%nat -> v r <> 0 -> v k <> 0 -> M r k = M' r k) -> quad n M v = quad n M' v.
Proof.
  intros H. apply Sum_ext. intros r Hr. destruct (Req_dec (v r) 0) as [E|E]; [rewrite E; ring|]. f_equal.
  apply Sum_ext. intros k Hk. destruct (Req_dec (v k) 0) as [E'|E']; [rewrite E'; ring|]. rewrite H; auto.
Qed.
(** adding [s e_i] *)
Lemma quad_add n M v i s : (i < n)%nat ->
  quad n M (fun k => v k + (if k =? i then s else 0))
  = quad n M v + s * Sum n (fun r => v r * M r i) + s * Sum n (fun k => M i k * v k) + s * s * M i i.
Proof.
  intros Hi. unfold quad.
  assert (E : forall r, (r < n)%nat -> Sum n (fun k => M r k * (v k + (if k =? i then s else 0)))
               = Sum n (fun k => M r k * v k) + s * M r i).
  { intros r Hr. rewrite (Sum_upd n _ (fun k => M r k * v k) i Hi).
    - rewrite Nat.eqb_refl. ring.
    - intros k Hk Hne. rewrite (proj2 (Nat.eqb_neq k i)) by auto. ring. }
  rewrite (Sum_upd n _ (fun r => v r * (Sum n (fun k => M r k * v k) + s * M r i)) i Hi).
  - rewrite Nat.eqb_refl, E by auto.
    rewrite (Sum_ext n (fun r => v r * (Sum n (fun k => M r k * v k) + s * M r i))
                       (fun r => v r * Sum n (fun k => M r k * v k) + s * (v r * M r i))) by (intros; ring).
    rewrite Sum_plus, Sum_scal. ring.
  - intros r Hr Hne. rewrite E by auto. rewrite (proj2 (Nat.eqb_neq r i)) by auto. ring.
Qed.
Lemma quad_0 n M : quad n M (fun _ => 0) = 0.
Proof. apply Sum_zero. intros. ring. Qed.
Lemma Sum_mul0 n (M : nat -> R) : Sum n (fun k => M k * 0) = 0.
Proof. apply Sum_zero. intros. ring. Qed.
Lemma Sum_0mul n (M : nat -> R) : Sum n (fun k => 0 * M k) = 0.
Proof. apply Sum_zero. intros. ring. Qed.
Lemma quad_e n M i s : (i < n)%nat -> quad n M (fun k => 0 + (if k =? i then s else 0)) = s * s * M i i.
Proof. intros Hi. rewrite (quad_add n M (fun _ => 0) i s Hi), quad_0, Sum_mul0, Sum_0mul. ring. Qed.
Lemma Sum_e n (f : nat -> R) i s : (i < n)%nat -> Sum n (fun k => f k * (0 + (if k =? i then s else 0))) = s * f i.
Proof.
  intros Hi. rewrite (Sum_single n _ i Hi).
  - rewrite Nat.eqb_refl. ring.
  - intros k Hk Hne. rewrite (proj2 (Nat.eqb_neq k i)) by auto. ring.
Qed.
Lemma Sum_e' n (f : nat -> R) i s : (i < n)%nat -> Sum n (fun k => (0 + (if k =? i then s else 0)) * f k) = s * f i.
Proof. intros Hi. rewrite <- (Sum_e n f i s Hi). apply Sum_ext. intros. ring. Qed.

Lemma psd_diag n i M : (i < n)%nat -> psd_from n i M -> 0 <= M i i.
Proof.
  intros Hi [_ H]. assert (E := H (fun k => 0 + (if k =? i then 1 else 0))). rewrite quad_e in E by auto.
  apply Rle_trans with (1 * 1 * M i i); [apply E|lra].
  intros r Hr. rewrite (proj2 (Nat.eqb_neq r i)) by lia. ring.
Qed.
Lemma psd_zero n i M : (i < n)%nat -> psd_from n i M -> M i i = 0 -> forall r, (i < r < n)%nat -> M r i = 0.
Proof.
  intros Hi [Hs H] E r Hr. destruct (Req_dec (M r i) 0) as [|Hne]; auto. exfalso.
  set (t := - (M r r + 1) / (2 * M r i)).
  assert (Q := H (fun k => (0 + (if k =? r then 1 else 0)) + (if k =? i then t else 0))).
  rewrite (quad_add n M (fun k => 0 + (if k =? r then 1 else 0)) i t Hi) in Q.
  rewrite quad_e, Sum_e, Sum_e' in Q by lia. rewrite (Hs i r), E in Q by lia.
  assert (0 <= 1 * 1 * M r r + t * (1 * M r i) + t * (1 * M r i) + t * t * 0).
  { apply Q. intros k Hk. rewrite (proj2 (Nat.eqb_neq k r)), (proj2 (Nat.eqb_neq k i)) by lia. ring. }
  assert (t * M r i = - (M r r + 1) / 2) by (unfold t; field; auto). lra.
Qed.
(** Schur complement *)
Lemma schur n i M v : (i < n)%nat -> M i i <> 0 -> sym_from n i M -> supp (Datatypes.S i) v ->
  quad n (fstep i M) v = quad n M (fun k => v k + (if k =? i then - Sum n (fun k => M i k * v k) / M i i else 0)).
Proof.
  intros Hi Hp Hs Hv. rewrite quad_add by auto. set (c := Sum n (fun k => M i k * v k)).
  assert (E1 : Sum n (fun r => v r * M r i) = c).
  { apply Sum_ext. intros r Hr. destruct (le_lt_dec r i); [rewrite Hv by lia; ring|]. rewrite (Hs r i) by lia. ring. }
  rewrite E1.
  assert (E2 : quad n (fstep i M) v = quad n M v - c * c / M i i).
  { unfold quad, fstep. destruct (Req_EM_T (M i i) 0); [contradiction|].
    rewrite (Sum_ext n _ (fun r => v r * Sum n (fun k => M r k * v k) - (v r * M r i) * (c / M i i))).
    - rewrite Sum_minus, Sum_scal_r, E1. field. auto.
    - intros r Hr. destruct (le_lt_dec r i) as [|Hri]; [rewrite Hv by lia; ring|].
      rewrite (Sum_ext n _ (fun k => M r k * v k - M r i / M i i * (M i k * v k))).
      + rewrite Sum_minus, Sum_scal. fold c. field. auto.
      + intros k Hk. rewrite (proj2 (Nat.ltb_lt i r)) by lia. cbn [andb].
        destruct (Nat.leb_spec i k); [ring|]. rewrite Hv by lia. ring. }
  rewrite E2. field. auto.
Qed.
Lemma fstep_sym n i M : (i < n)%nat -> sym_from n i M -> sym_from n (Datatypes.S i) (fstep i M).
Proof.
  intros Hi H r k Hr Hk. unfold fstep. destruct (Req_EM_T (M i i) 0); [apply H; lia|].
  rewrite (proj2 (Nat.ltb_lt i r)), (proj2 (Nat.leb_le i k)), (proj2 (Nat.ltb_lt i k)), (proj2 (Nat.leb_le i r)) by lia. cbn [andb].
  rewrite (H r k), (H r i), (H i k) by lia. field. auto.
Qed.
Lemma psd_step n i M : (i < n)%nat -> psd_from n i M -> psd_from n (Datatypes.S i) (fstep i M).
Proof.
  intros Hi HP. split; [apply fstep_sym; auto; apply HP|]. intros v Hv.
  destruct (Req_EM_T (M i i) 0) as [E|E].
  - unfold fstep. destruct (Req_EM_T (M i i) 0); [|contradiction]. apply HP. intros r Hr. apply Hv. lia.
  - rewrite schur by (auto; apply HP). apply HP. intros r Hr. rewrite Hv by lia. rewrite (proj2 (Nat.eqb_neq r i)) by lia. ring.
Qed.
Lemma pd_diag n i M : (i < n)%nat -> pd_from n i M -> 0 < M i i.
Proof.
  intros Hi [_ H]. assert (E := H (fun k => 0 + (if k =? i then 1 else 0))). rewrite quad_e in E by auto.
  apply Rlt_le_trans with (1 * 1 * M i i); [|lra]. apply E.
  - intros r Hr. rewrite (proj2 (Nat.eqb_neq r i)) by lia. ring.
  - exists i. split; auto. rewrite Nat.eqb_refl. lra.
Qed.
Lemma pd_step n i M : (i < n)%nat -> pd_from n i M -> pd_from n (Datatypes.S i) (fstep i M).
Proof.
  intros Hi HP. pose proof (pd_diag n i M Hi HP) as Hd. split; [apply fstep_sym; auto; apply HP|].
  intros v Hv (r & Hr & Hnz). rewrite schur by (auto; try lra; apply HP). apply HP.
  - intros k Hk. rewrite Hv by lia. rewrite (proj2 (Nat.eqb_neq k i)) by lia. ring.
  - exists r. split; auto. destruct (Nat.eqb_spec r i) as [->|]; [rewrite Hv in Hnz by lia; lra|]. lra.
Qed.

(** *** instances *)
Lemma aug_quad last A b v : quad (Datatypes.S last) (aug last A b) v = quad (Datatypes.S last) A v.
Proof. apply quad_ext. intros r k Hr Hk _ _. unfold aug. rewrite (proj2 (Nat.eqb_neq k _)) by lia. reflexivity. Qed.
Lemma psd_aug last A b : symmetric (Datatypes.S last) A -> pos_semidef (Datatypes.S last) A ->
  psd_from (Datatypes.S last) 0 (aug last A b).
Proof.
  intros Hs Hp. split.
  - intros r k Hr Hk. unfold aug. rewrite (proj2 (Nat.eqb_neq k _)), (proj2 (Nat.eqb_neq r _)) by lia. apply Hs; lia.
  - intros v _. rewrite aug_quad. apply Hp.
Qed.
Lemma pd_aug last A b : symmetric (Datatypes.S last) A -> pos_def (Datatypes.S last) A ->
  pd_from (Datatypes.S last) 0 (aug last A b).
Proof.
  intros Hs Hp. split.
  - intros r k Hr Hk. unfold aug. rewrite (proj2 (Nat.eqb_neq k _)), (proj2 (Nat.eqb_neq r _)) by lia. apply Hs; lia.
  - intros v _. rewrite aug_quad. apply Hp.
Qed.
(** semidefinite: a success is the unique solution *)
Lemma psd_result n ra ca A b : (1 <= n)%nat -> (n <= ra)%nat -> (n <= ca)%nat -> symmetric n A -> pos_semidef n A ->
  solve_lin_sys xops (xm ra ca A) (xv n b) = Ret (Err SingularMatrix) \/
  exists x, solve_lin_sys xops (xm ra ca A) (xv n b) = Ret (Ok (xv n x)) /\
    forall y, solves n A b y <-> eq_on n y x.
Proof.
  intros Hn Hr Hc Hs Hp. destruct n as [|last]; [lia|].
  destruct (solve_spec last (psd_from (Datatypes.S last))) with (ra := ra) (ca := ca) (A := A) (b := b)
    as (x & E & Hx); auto.
  - intros i M Hi. apply psd_zero; auto.
  - intros i M Hi. apply psd_step; auto.
  - apply psd_aug; auto.
  - unfold xv. rewrite E. destruct (first_zero _ _); [left; reflexivity|right]. exists x. split; [reflexivity|].
    intros y. apply Hx. reflexivity.
Qed.
(** no zero pivot *)
Lemma no_zero_pivot last (TP : nat -> rmat -> Prop) A b :
  (forall i M, (i < Datatypes.S last)%nat -> TP i M -> M i i <> 0) ->
  (forall i M, (i < Datatypes.S last)%nat -> TP i M -> TP (Datatypes.S i) (fstep i M)) ->
  TP 0%nat (aug last A b) -> first_zero (fwd last A b) (seq 0 (Datatypes.S last)) = false.
Proof.
  intros Hd Hs H0. unfold fwd.
  assert (G : forall n, (n <= last)%nat -> let M := fold_left (fun M i => fstep i M) (seq 0 n) (aug last A b) in
    TP n M /\ forall r, (r < n)%nat -> M r r <> 0).
  { induction n as [|n IH]; intros Hn; [simpl; split; [auto|lia]|]. destruct IH as [H1 H2]; [lia|].
    cbv zeta in *. rewrite seq_S, fold_left_app. cbn [fold_left plus]. split; [apply Hs; auto; lia|].
    intros r Hr. rewrite fstep_row by lia. destruct (Nat.eq_dec r n) as [->|]; [apply Hd; auto; lia|apply H2; lia]. }
  destruct (G last (le_n _)) as [H1 H2]. set (M := fold_left _ _ _) in *.
  apply not_true_iff_false. intros H. apply existsb_exists in H. destruct H as (r & Hr & E). apply in_seq in Hr. rb.
  destruct (Nat.eq_dec r last) as [->|]; [apply (Hd last M); auto|apply (H2 r); auto; lia].
Qed.
Lemma pd_result n A b : (1 <= n)%nat -> symmetric n A -> pos_def n A ->
  exists x, solve_lin_sys xops (xm n n A) (xv n b) = Ret (Ok (xv n x)) /\
    forall y, solves n A b y <-> eq_on n y x.
Proof.
  intros Hn Hs Hp. destruct n as [|last]; [lia|].
  destruct (solve_spec last (pd_from (Datatypes.S last))) with (ra := Datatypes.S last) (ca := Datatypes.S last) (A := A) (b := b)
    as (x & E & Hx); auto.
  - intros i M Hi HP. pose proof (pd_diag _ _ _ Hi HP). lra.
  - intros i M Hi. apply pd_step; auto.
  - apply pd_aug; auto.
  - assert (F : first_zero (fwd last A b) (seq 0 (Datatypes.S last)) = false).
    { apply (no_zero_pivot last (pd_from (Datatypes.S last))).
      - intros i M Hi HP. pose proof (pd_diag _ _ _ Hi HP). lra.
      - intros i M Hi. apply pd_step; auto.
      - apply pd_aug; auto. }
    unfold xv. rewrite E, F in *. exists x. split; [reflexivity|]. intros y. apply Hx. reflexivity.
Qed.
(** a semidefinite matrix which is not definite is singular *)
Lemma psd_kernel n A v : symmetric n A -> pos_semidef n A -> quad n A v <= 0 -> solves n A (fun _ => 0) v.
Proof.
  intros Hs Hp Hq r Hr. set (c := Sum n (fun k => A r k * v k)).
  destruct (Req_dec c 0) as [|Hc]; auto. exfalso.
  (* quad (v + s e_r) = q + 2 s c + s^2 a >= 0 for all s *)
  assert (Hsym : Sum n (fun k => v k * A k r) = c).
  { apply Sum_ext. intros k Hk. rewrite (Hs k r) by auto. ring. }
  assert (Q : forall s, 0 <= quad n A v + 2 * s * c + s * s * A r r).
  { intros s. pose proof (Hp (fun k => v k + (if k =? r then s else 0))) as H. rewrite quad_add in H by auto.
    rewrite Hsym in H. fold c in H. lra. }
  assert (Ha : 0 <= A r r).
  { pose proof (Hp (fun k => 0 + (if k =? r then 1 else 0))) as H. rewrite quad_e in H by auto. lra. }
  specialize (Q (- c / (A r r + 1))).
  assert (E : quad n A v + 2 * (- c / (A r r + 1)) * c + - c / (A r r + 1) * (- c / (A r r + 1)) * A r r
            = quad n A v - (c^2 / (A r r + 1)^2) * (A r r + 2)) by (field; lra).
  rewrite E in Q.
  assert (0 < c^2) by (pose proof (pow2_ge_0 c); assert (c^2 <> 0) by (apply pow_nonzero; auto); lra).
  assert (0 < (A r r + 1)^2) by (apply pow_lt; lra).
  assert (0 < c^2 / (A r r + 1)^2) by (apply Rdiv_lt_0_compat; auto).
  assert (0 < c^2 / (A r r + 1)^2 * (A r r + 2)) by (apply Rmult_lt_0_compat; lra). lra.
Qed.
Lemma psd_err n A b : (1 <= n)%nat -> symmetric n A -> pos_semidef n A ->
  solve_lin_sys xops (xm n n A) (xv n b) = Ret (Err SingularMatrix) -> singular n A.
Proof.
  intros Hn Hs Hp E. apply NNPP. intros Hns.
  assert (Hpd : pos_def n A).
  { intros v Hv. destruct (Rle_lt_or_eq_dec 0 (quad n A v) (Hp v)) as [|Eq]; auto. exfalso. apply Hns.
    exists v. split; auto. apply psd_kernel; auto. lra. }
  destruct (pd_result n A b Hn Hs Hpd) as (x & Ex & _). rewrite Ex in E. discriminate.
Qed.
(** a singular matrix is never solved when it is semidefinite *)
Lemma psd_ok_nonsingular n A b x : (1 <= n)%nat -> symmetric n A -> pos_semidef n A ->
  solve_lin_sys xops (xm n n A) (xv n b) = Ret (Ok x) -> ~ singular n A.
Proof.
  intros Hn Hs Hp E (v & (r & Hr & Hnz) & Hv).
  destruct (psd_result n n n A b) as [E'|(x' & E' & Hu)]; auto; rewrite E' in E; [discriminate|].
  assert (H1 : solves n A b x') by (apply Hu; intros i _; reflexivity).
  assert (H2 : solves n A b (fun k => x' k + v k)).
  { intros q Hq. rewrite (Sum_ext n _ (fun k => A q k * x' k + A q k * v k)) by (intros; ring).
    rewrite Sum_plus, H1, Hv by auto. ring. }
  apply Hu in H2. specialize (H2 r Hr). cbv beta in H2. lra.
Qed.
(** LU *)
Section LU.
Context (n : nat) (L U : rmat)
  (HL1 : forall r, (r < n)%nat -> L r r = 1) (HL : forall r l, (r < l)%nat -> L r l = 0)
  (HU1 : forall l, (l < n)%nat -> U l l <> 0) (HU : forall l k, (k < l)%nat -> U l k = 0).
Definition lu_from (i : nat) (M : rmat) : Prop := forall r k, (i <= r < n)%nat -> (i <= k < n)%nat ->
  M r k = Sum n (fun l => if i <=? l then L r l * U l k else 0).
Lemma lu_row i M k : (i <= k < n)%nat -> lu_from i M -> M i k = U i k.
Proof.
  intros Hk H. rewrite H by lia. rewrite (Sum_single n _ i); [|lia|].
  - rewrite Nat.leb_refl, HL1 by lia. ring.
  - intros l Hl Hne. destruct (Nat.leb_spec i l); auto. rewrite HL by lia. ring.
Qed.
Lemma lu_col i M r : (i <= r < n)%nat -> lu_from i M -> M r i = L r i * U i i.
Proof.
  intros Hk H. rewrite H by lia. rewrite (Sum_single n _ i); [|lia|].
  - rewrite Nat.leb_refl. reflexivity.
  - intros l Hl Hne. destruct (Nat.leb_spec i l); auto. rewrite HU by lia. ring.
Qed.
Lemma lu_piv i M : (i < n)%nat -> lu_from i M -> M i i <> 0.
Proof. intros Hi H. rewrite (lu_row i M i) by (auto; lia). auto. Qed.
Lemma lu_step i M : (i < n)%nat -> lu_from i M -> lu_from (Datatypes.S i) (fstep i M).
Proof.
  intros Hi H r k Hr Hk. unfold fstep. destruct (Req_EM_T (M i i) 0) as [E|E]; [exfalso; apply (lu_piv i M); auto|].
  rewrite (proj2 (Nat.ltb_lt i r)), (proj2 (Nat.leb_le i k)) by lia. cbn [andb].
  rewrite (lu_row i M k), (lu_row i M i), (lu_col i M r), (H r k) by (auto; lia).
  rewrite (Sum_upd n _ (fun l => if Datatypes.S i <=? l then L r l * U l k else 0) i).
  - rewrite Nat.leb_refl, (proj2 (Nat.leb_gt (Datatypes.S i) i)) by lia. field. auto.
  - auto.
  - intros l Hl Hne. destruct (Nat.leb_spec i l), (Nat.leb_spec (Datatypes.S i) l); try lia; reflexivity.
Qed.
End LU.
Lemma lu_result n A L U b : (1 <= n)%nat -> lu n A L U ->
  exists x, solve_lin_sys xops (xm n n A) (xv n b) = Ret (Ok (xv n x)) /\
    forall y, solves n A b y <-> eq_on n y x.
Proof.
  intros Hn (HA & HL1 & HL & HU1 & HU). destruct n as [|last]; [lia|].
  assert (H0 : lu_from (Datatypes.S last) L U 0 (aug last A b)).
  { intros r k Hr Hk. unfold aug. rewrite (proj2 (Nat.eqb_neq k _)) by lia. rewrite HA by lia. reflexivity. }
  destruct (solve_spec last (lu_from (Datatypes.S last) L U)) with (ra := Datatypes.S last) (ca := Datatypes.S last) (A := A) (b := b)
    as (x & E & Hx); auto.
  - intros i M Hi HP E. exfalso. eapply lu_piv; eauto.
  - intros i M Hi HP. apply lu_step; auto.
  - assert (F : first_zero (fwd last A b) (seq 0 (Datatypes.S last)) = false).
    { apply (no_zero_pivot last (lu_from (Datatypes.S last) L U)); auto.
      - intros i M Hi HP. eapply lu_piv; eauto.
      - intros i M Hi HP. apply lu_step; auto. }
    unfold xv. rewrite E, F in *. exists x. split; [reflexivity|]. intros y. apply Hx. reflexivity.
Qed.

(** *** failures *)
Lemma bad_ok : exists A b x y, solve_lin_sys xops (xm 2 2 A) (xv 2 b) = Ret (Ok (xv 2 x)) /\
  solves 2 A b y /\ ~ singular 2 A /\ ~ solves 2 A b x.
Proof.
  exists (fun i j => if (i =? 0)%nat && (j =? 0)%nat then 0 else 1), (fun i => if (i =? 0)%nat then 1 else 3),
         (fun i => if (i =? 0)%nat then 2 else 3), (fun i => if (i =? 0)%nat then 2 else 1).
  split; [|split; [|split]].
  - unfold solve_lin_sys, xv. rewrite tab_length. unfold xm. cbn -[Rplus Rmult Rdiv Rminus].
    unfold mget, mset. cbn -[Rplus Rmult Rdiv Rminus]. 
    repeat first [rewrite Reqb_refl | rewrite (proj2 (Reqb_false _ _)) by lra | progress (cbn -[Rplus Rmult Rdiv Rminus])].
    do 2 f_equal. unfold tab. cbn [map seq Nat.eqb]. listR; field.
  - intros [|[|r]] Hr; [| |lia]; unfold Sum; cbn; lra.
  - intros (v & Hv & H). pose proof (H 0%nat ltac:(lia)) as H0. pose proof (H 1%nat ltac:(lia)) as H1.
    unfold Sum in *. cbn in *. destruct Hv as ([|[|r]] & Hr & Hnz); [| |lia]; lra.
  - intros H. specialize (H 0%nat ltac:(lia)). unfold Sum in H. cbn in H. lra.
Qed.
Lemma bad_err : exists A b y, solve_lin_sys xops (xm 2 2 A) (xv 2 b) = Ret (Err SingularMatrix) /\
  ~ singular 2 A /\ solves 2 A b y.
Proof.
  exists (fun i j => if (i =? j)%nat then 0 else 1), (fun i => if (i =? 0)%nat then 1 else 2),
         (fun i => if (i =? 0)%nat then 2 else 1).
  split; [|split].
  - unfold solve_lin_sys, xv. rewrite tab_length. unfold xm. cbn -[Rplus Rmult Rdiv Rminus].
    unfold mget, mset. cbn -[Rplus Rmult Rdiv Rminus]. 
    repeat first [rewrite Reqb_refl | rewrite (proj2 (Reqb_false _ _)) by lra | progress (cbn -[Rplus Rmult Rdiv Rminus])].
    reflexivity.
  - intros (v & Hv & H). pose proof (H 0%nat ltac:(lia)) as H0. pose proof (H 1%nat ltac:(lia)) as H1.
    unfold Sum in *. cbn in *. destruct Hv as ([|[|r]] & Hr & Hnz); [| |lia]; lra.
  - intros [|[|r]] Hr; [| |lia]; unfold Sum; cbn; lra.
Qed.
(** the identity-like example *)
Lemma ex_lu : exists A L U, lu 2 A L U /\ A 0%nat 1%nat = 1 /\ A 1%nat 0%nat = 3.
Proof.
  exists (fun i j => if (i =? 0)%nat then (if (j =? 0)%nat then 2 else 1) else (if (j =? 0)%nat then 3 else 5)),
    (fun i j => if (i =? j)%nat then 1 else if (j <? i)%nat then 3/2 else 0),
    (fun i j => if (j <? i)%nat then 0 else if (i =? 0)%nat then (if (j =? 0)%nat then 2 else 1) else 7/2).
  split; [|split; reflexivity]. split; [|split; [|split; [|split]]].
  - intros [|[|r]] [|[|k]] Hr Hk; try lia; unfold Sum; cbn; lra.
  - intros r _. rewrite Nat.eqb_refl. reflexivity.
  - intros r l H. rewrite (proj2 (Nat.eqb_neq r l)), (proj2 (Nat.ltb_ge l r)) by lia. reflexivity.
  - intros [|[|l]] Hl; try lia; cbn; lra.
  - intros l k H. rewrite (proj2 (Nat.ltb_lt k l)) by lia. reflexivity.
Qed.
Lemma ex_pd : symmetric 2 (fun i j => if (i =? j)%nat then 2 else 1) /\ pos_def 2 (fun i j => if (i =? j)%nat then 2 else 1).
Proof.
  split.
  - intros r k _ _. rewrite Nat.eqb_sym. reflexivity.
  - intros v (r & Hr & Hnz). unfold quad, Sum. cbn.
    assert (v 0%nat <> 0 \/ v 1%nat <> 0) by (destruct r as [|[|r]]; [left|right|lia]; auto).
    set (a := v 0%nat) in *. set (b := v 1%nat) in *.
    assert (Ha := pow2_ge_0 a). assert (Hb := pow2_ge_0 b). assert (Hab := pow2_ge_0 (a + b)).
    assert (0 < a^2 + b^2).
    { destruct H as [H|H]; [assert (a^2 <> 0)|assert (b^2 <> 0)]; try (apply pow_nonzero; auto); lra. }
    replace (a * (2 * a + (1 * b + 0)) + (b * (1 * a + (2 * b + 0)) + 0)) with (a^2 + b^2 + (a+b)^2) by ring. lra.
Qed.
