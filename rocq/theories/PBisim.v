(** Two runs of the solver in lockstep, in any arithmetic: same coefficients, related fits. *)
From Coq Require Import List ZArith Bool Arith Lia.
From Verif Require Import Ops Arr MUtils MDatasets MDatafits MDatafitsMT MPenalties MBlockPenalties MCd MBcd PBase.
Import ListNotations.

Definition rr {A B} (R : A -> B -> Prop) (a : res A) (b : res B) : Prop :=
  match a, b with Ret x, Ret y => R x y | Panic k, Panic k' => k = k' | _, _ => False end.
Lemma rr_bind {A B A' B'} (R : A -> B -> Prop) (S : A' -> B' -> Prop) a b f g : rr R a b -> (forall x y, R x y -> rr S (f x) (g y)) -> rr S (bind a f) (bind b g).
Proof. destruct a, b; cbn; intros H H'; try contradiction; [apply H', H|exact H]. Qed.
Lemma rr_eq {A} (a b : res A) : rr eq a b -> a = b.
Proof. destruct a, b; cbn; intros H; try contradiction; congruence. Qed.
Lemma rr_refl {A} (R : A -> A -> Prop) (a : res A) : (forall x, a = Ret x -> R x x) -> rr R a a.
Proof. destruct a; cbn; auto. Qed.
Lemma rr_impl {A B} (R S : A -> B -> Prop) a b : (forall x y, R x y -> S x y) -> rr R a b -> rr S a b.
Proof. destruct a, b; cbn; auto. Qed.
Lemma rr_foldM {A A' B B'} (Q : A -> A' -> Prop) (R : B -> B' -> Prop) (f : B -> A -> res B) (g : B' -> A' -> res B') l l' : Forall2 Q l l' ->
  (forall s s' a a', R s s' -> Q a a' -> rr R (f s a) (g s' a')) -> forall s s', R s s' -> rr R (foldM f l s) (foldM g l' s').
Proof.
  intros HF H. induction HF as [|a a' l l' Ha HF IH]; intros s s' HR; cbn [foldM]; [exact HR|].
  apply (rr_bind R); [apply H; assumption|]. intros x y Hx. apply IH, Hx.
Qed.
Lemma rr_mapM {A A' B B'} (Q : A -> A' -> Prop) (R : B -> B' -> Prop) (f : A -> res B) (g : A' -> res B') l l' : Forall2 Q l l' ->
  (forall a a', Q a a' -> rr R (f a) (g a')) -> rr (Forall2 R) (mapM f l) (mapM g l').
Proof.
  intros HF H. induction HF as [|a a' l l' Ha HF IH]; cbn [mapM]; [constructor|].
  apply (rr_bind R); [apply H, Ha|]. intros x y Hx. apply (rr_bind (Forall2 R)); [exact IH|]. intros xs ys Hxs. constructor; assumption.
Qed.
Lemma F2_same {A} (l : list A) : Forall2 eq l l. Proof. induction l; constructor; auto. Qed.
Lemma F2_eq {A} (l l' : list A) : Forall2 eq l l' -> l = l'. Proof. induction 1; congruence. Qed.
Lemma rr_foldM_same {A B B'} (R : B -> B' -> Prop) (f : B -> A -> res B) (g : B' -> A -> res B') l :
  (forall s s' a, R s s' -> rr R (f s a) (g s' a)) -> forall s s', R s s' -> rr R (foldM f l s) (foldM g l s').
Proof. intros H. apply (rr_foldM eq); [apply F2_same|]. intros s s' a a' HR <-. apply H, HR. Qed.
Lemma mapM_same {A B} (f g : A -> res B) l : (forall a, In a l -> f a = g a) -> mapM f l = mapM g l.
Proof. induction l as [|a l IH]; intros H; cbn [mapM]; [reflexivity|]. rewrite (H a (or_introl eq_refl)), IH; [reflexivity|]. intros b Hb. apply H. right. exact Hb. Qed.

Section CD.
Context {F DM D P DM' D' : Type} (o : FOps F) (dm : DesignMatrix F DM) (df : Datafit F DM D) (dm' : DesignMatrix F DM') (df' : Datafit F DM' D') (pen : Penalty F P) (srt : list F -> list nat).
Context (ds : dataset DM F) (ds' : dataset DM' F) (d : D) (d' : D') (q : P) (R : list F -> list F -> Prop).
Context (acc : bool).
Local Notation X := (design_matrix ds).
Local Notation X' := (design_matrix ds').
Context (H1 : df_step_size df d = df_step_size df' d').
Context (H2 : forall Xw Xw' j, R Xw Xw' -> df_gradient_j df d ds Xw j = df_gradient_j df' d' ds' Xw' j).
Context (H3 : forall Xw Xw' a j, R Xw Xw' -> rr R (dm_update dm X Xw a j) (dm_update dm' X' Xw' a j)).
Context (H4 : forall Xw Xw', R Xw Xw' -> rr (fun v v' => acc = true -> v = v') (df_value df d ds Xw) (df_value df' d' ds' Xw')).
Context (H5 : acc = true -> forall ws w, rr R (dm_extrap dm X ws w (n_samples (dtargets ds))) (dm_extrap dm' X' ws w (n_samples (dtargets ds')))).
Context (H6 : dm_n_features dm X = dm_n_features dm' X').
Definition SR (s s' : list F * list F) : Prop := fst s = fst s' /\ R (snd s) (snd s').

Lemma b_step s s' j : SR s s' -> rr SR (cd_step o dm df pen ds d q s j) (cd_step o dm' df' pen ds' d' q s' j).
Proof using H1 H2 H3.
  destruct s as [w Xw], s' as [w' Xw']. intros [E HR]. cbn [fst snd] in *. subst w'. unfold cd_step. rewrite H1.
  destruct (vget (df_step_size df' d') j) as [l|]; [|reflexivity]. cbn [bind]. destruct (feq o l (f0 o)); [split; auto|].
  destruct (vget w j) as [wj|]; [|reflexivity]. cbn [bind]. rewrite (H2 _ _ j HR). destruct (df_gradient_j df' d' ds' Xw' j) as [g|]; [|reflexivity]. cbn [bind].
  destruct (vset w j _) as [w1|]; [|reflexivity]. cbn [bind]. destruct (negb _); [|split; auto]. apply (rr_bind R); [apply H3, HR|]. intros x y Hxy. split; auto.
Qed.
Lemma b_steps ws s s' : SR s s' -> rr SR (foldM (cd_step o dm df pen ds d q) ws s) (foldM (cd_step o dm' df' pen ds' d' q) ws s').
Proof using H1 H2 H3. revert s s'. apply rr_foldM_same. intros s s' j. apply b_step. Qed.
Lemma b_ocv w Xw Xw' ws : R Xw Xw' -> opt_cond_violation df pen ds w Xw ws d q = opt_cond_violation df' pen ds' w Xw' ws d' q.
Proof using H2. intros HR. unfold opt_cond_violation, construct_grad. rewrite (mapM_same _ (fun j => df_gradient_j df' d' ds' Xw' j)) by (intros j _; apply H2, HR). reflexivity. Qed.
Lemma b_accel LK w Xw Xw' ws ep K v : acc = true -> R Xw Xw' ->
  rr (fun a b => SR (fst a) (fst b) /\ snd a = snd b) (anderson_accel o dm df pen ds d q LK w Xw ws ep K v) (anderson_accel o dm' df' pen ds' d' q LK w Xw' ws ep K v).
Proof using H4 H5 H6.
  intros A HR. unfold anderson_accel. rewrite <- H6. destruct (dm_n_features dm X) as [p|]; [|reflexivity]. cbn [bind]. destruct (store_iterate _ _ _ _) as [LK'|]; [|reflexivity]. cbn [bind].
  destruct (_ =? K); [|split; [split; auto|reflexivity]]. destruct (anderson_point _ _ _ _) as [[pt|]|]; [|split; [split; auto|reflexivity]|reflexivity]. cbn [bind].
  destruct (scatter o p pt ws) as [wa|]; [|reflexivity]. cbn [bind]. apply (rr_bind R); [apply H5, A|]. intros Xa Xa' HRa.
  apply (rr_bind _ _ _ _ _ _ (H4 _ _ HR)). intros v1 v1' Hv. apply (rr_bind _ _ _ _ _ _ (H4 _ _ HRa)). intros v2 v2' Hv2. rewrite (Hv A), (Hv2 A).
  destruct (flt o _ _); split; try reflexivity; split; auto.
Qed.
Lemma b_inner nf tol km K v ws wsz es : forall w Xw Xw' LK, R Xw Xw' ->
  rr SR (inner_loop o dm df pen ds d q nf tol km K acc v ws wsz es w Xw LK) (inner_loop o dm' df' pen ds' d' q nf tol km K acc v ws wsz es w Xw' LK).
Proof using H1 H2 H3 H4 H5 H6.
  induction es as [|e es IH]; intros w Xw Xw' LK HR; cbn [inner_loop]; [split; auto|].
  apply (rr_bind SR); [apply b_steps; split; auto|]. intros [w1 X1] [w1' X1'] [E HR1]. cbn [fst snd] in *. subst w1'.
  apply (rr_bind (fun a b => SR (fst a) (fst b) /\ snd a = snd b)).
  { assert (Q : forall b, acc = b -> rr (fun a b => SR (fst a) (fst b) /\ snd a = snd b) (if b then anderson_accel o dm df pen ds d q LK w1 X1 ws e K v else Ret (w1, X1, LK)) (if b then anderson_accel o dm' df' pen ds' d' q LK w1 X1' ws e K v else Ret (w1, X1', LK))); [|exact (Q acc eq_refl)].
    intros [|] A; [apply b_accel; auto|split; [split; auto|reflexivity]]. }
  intros [[w2 X2] L2] [[w2' X2'] L2'] [[E2 HR2] E3]. cbn [fst snd] in *. subst w2' L2'.
  specialize (IH w2 X2 X2' L2 HR2). destruct (_ && _); [|exact IH]. apply (rr_bind _ _ _ _ _ _ (H4 _ _ HR2)). intros v1 v2 _.
  rewrite (b_ocv w2 X2 X2' ws HR2). destruct (opt_cond_violation df' pen ds' w2 X2' ws d' q) as [[sc mx]|]; [|reflexivity]. cbn [bind].
  destruct (wsz =? nf); [destruct (fle o mx tol)|destruct (flt o mx _)]; try exact IH; split; auto.
Qed.
Lemma b_outer nf s me tol K v it : forall w Xw Xw', R Xw Xw' ->
  outer_loop o dm df pen srt ds d q nf s me tol K acc v it w Xw = outer_loop o dm' df' pen srt ds' d' q nf s me tol K acc v it w Xw'.
Proof using H1 H2 H3 H4 H5 H6.
  induction it as [|it IH]; intros w Xw Xw' HR; cbn [outer_loop]; [reflexivity|]. rewrite (b_ocv w Xw Xw' _ HR). destruct (opt_cond_violation df' pen ds' w Xw' _ d' q) as [[sc mx]|]; [|reflexivity]. cbn [bind].
  destruct (fle o mx tol); [reflexivity|]. destruct (construct_ws_from_kkt _ _ _ _ _) as [[ws wsz]|]; [|reflexivity]. cbn [bind]. apply rr_eq. apply (rr_bind SR); [apply b_inner, HR|].
  intros [w1 X1] [w1' X1'] [E HR1]. cbn [fst snd] in *. subst w1'. rewrite (IH w1 X1 X1' HR1). destruct (outer_loop _ _ _ _ _ _ _ _ _ _ _ _ _ _ _ _ _ _); reflexivity.
Qed.
End CD.
Lemma b_cd {F DM D P DM' D'} (o : FOps F) (dm : DesignMatrix F DM) (df : Datafit F DM D) (dm' : DesignMatrix F DM') (df' : Datafit F DM' D') (pen : Penalty F P) srt ds ds' d0 d0' q (R : list F -> list F -> Prop) s mi me tol K acc v :
  dm_n_features dm (design_matrix ds) = dm_n_features dm' (design_matrix ds') ->
  rr (fun d d' => df_step_size df d = df_step_size df' d' /\
    (forall Xw Xw' j, R Xw Xw' -> df_gradient_j df d ds Xw j = df_gradient_j df' d' ds' Xw' j) /\
    (forall Xw Xw', R Xw Xw' -> rr (fun v v' => acc = true -> v = v') (df_value df d ds Xw) (df_value df' d' ds' Xw')))
    (df_initialize df d0 ds) (df_initialize df' d0' ds') ->
  (forall Xw Xw' a j, R Xw Xw' -> rr R (dm_update dm (design_matrix ds) Xw a j) (dm_update dm' (design_matrix ds') Xw' a j)) ->
  (acc = true -> forall ws w, rr R (dm_extrap dm (design_matrix ds) ws w (n_samples (dtargets ds))) (dm_extrap dm' (design_matrix ds') ws w (n_samples (dtargets ds')))) ->
  R (vzeros o (n_samples (dtargets ds))) (vzeros o (n_samples (dtargets ds'))) ->
  coordinate_descent o dm df pen srt ds d0 q s mi me tol K acc v = coordinate_descent o dm' df' pen srt ds' d0' q s mi me tol K acc v.
Proof.
  intros H6 HI H3 H5 H0. unfold coordinate_descent. cbv zeta. rewrite H6. destruct (dm_n_features dm' _) as [p|] eqn:Ep; [|reflexivity]. cbn [bind]. apply rr_eq. apply (rr_bind _ _ _ _ _ _ HI). intros d d' (A & B & C).
  rewrite (b_outer o dm df dm' df' pen srt ds ds' d d' q R acc A B H3 C H5 ltac:(congruence) _ _ _ _ _ _ _ _ _ _ H0). destruct (outer_loop _ _ _ _ _ _ _ _ _ _ _ _ _ _ _ _ _ _); reflexivity.
Qed.

Section BCD.
Context {F DM D P DM' D' : Type} (o : FOps F) (dm : DesignMatrix F DM) (df : DatafitMT F DM D) (dm' : DesignMatrix F DM') (df' : DatafitMT F DM' D') (pen : PenaltyMT F P) (srt : list F -> list nat).
Context (ds : dataset DM F) (ds' : dataset DM' F) (d : D) (d' : D') (q : P) (R : mat F -> mat F -> Prop).
Context (acc : bool).
Local Notation X := (design_matrix ds).
Local Notation X' := (design_matrix ds').
Context (H0 : n_tasks (dtargets ds) = n_tasks (dtargets ds')).
Context (H1 : dfm_step_size df d = dfm_step_size df' d').
Context (H2 : forall Xw Xw' j, R Xw Xw' -> dfm_gradient_j df d ds Xw j = dfm_gradient_j df' d' ds' Xw' j).
Context (H3 : forall Xw Xw' a j, R Xw Xw' -> rr R (dm_update_mt dm X Xw a j) (dm_update_mt dm' X' Xw' a j)).
Context (H4 : forall Xw Xw', R Xw Xw' -> rr (fun v v' => acc = true -> v = v') (dfm_value df d ds Xw) (dfm_value df' d' ds' Xw')).
Context (H5 : acc = true -> forall ws w, rr R (dm_extrap_mt dm X ws w (n_samples (dtargets ds)) (n_tasks (dtargets ds))) (dm_extrap_mt dm' X' ws w (n_samples (dtargets ds')) (n_tasks (dtargets ds')))).
Context (H6 : dm_n_features dm X = dm_n_features dm' X').
Definition SRm (s s' : mat F * mat F) : Prop := fst s = fst s' /\ R (snd s) (snd s').

Lemma bm_step s s' j : SRm s s' -> rr SRm (bcd_step o dm df pen ds d q s j) (bcd_step o dm' df' pen ds' d' q s' j).
Proof using H0 H1 H2 H3.
  destruct s as [w Xw], s' as [w' Xw']. intros [E HR]. cbn [fst snd] in *. subst w'. unfold bcd_step. rewrite H1, H0.
  destruct (vget (dfm_step_size df' d') j) as [l|]; [|reflexivity]. cbn [bind]. destruct (feq o l (f0 o)); [split; auto|].
  destruct (mrow w j) as [wj|]; [|reflexivity]. cbn [bind]. rewrite (H2 _ _ j HR). destruct (dfm_gradient_j df' d' ds' Xw' j) as [g|]; [|reflexivity]. cbn [bind].
  destruct (vsub o wj _) as [st|]; [|reflexivity]. cbn [bind]. destruct (foldM _ (seq 0 _) w) as [w1|]; [|reflexivity]. cbn [bind]. destruct (mapM _ _) as [df1|]; [|reflexivity]. cbn [bind].
  destruct (any_nonzero o df1); [|split; auto]. apply (rr_bind R); [apply H3, HR|]. intros x y Hxy. split; auto.
Qed.
Lemma bm_steps ws s s' : SRm s s' -> rr SRm (foldM (bcd_step o dm df pen ds d q) ws s) (foldM (bcd_step o dm' df' pen ds' d' q) ws s').
Proof using H0 H1 H2 H3. revert s s'. apply rr_foldM_same. intros s s' j. apply bm_step. Qed.
Lemma bm_ocv w Xw Xw' ws : R Xw Xw' -> opt_cond_violation_mt df pen ds w Xw ws d q = opt_cond_violation_mt df' pen ds' w Xw' ws d' q.
Proof using H0 H2. intros HR. unfold opt_cond_violation_mt, construct_grad_mt. rewrite (mapM_same _ (fun j => dfm_gradient_j df' d' ds' Xw' j)) by (intros j _; apply H2, HR). rewrite H0. reflexivity. Qed.
Lemma bm_accel LK w Xw Xw' ws ep K v : acc = true -> R Xw Xw' ->
  rr (fun a b => SRm (fst a) (fst b) /\ snd a = snd b) (anderson_accel_mt o dm df pen ds w Xw d q ws LK ep K v) (anderson_accel_mt o dm' df' pen ds' w Xw' d' q ws LK ep K v).
Proof using H0 H4 H5 H6.
  intros A HR. unfold anderson_accel_mt. rewrite <- H6. destruct (dm_n_features dm X) as [p|]; [|reflexivity]. cbn [bind]. destruct (store_iterate_mt _ _ _ _) as [LK'|]; [|reflexivity]. cbn [bind].
  destruct (_ =? K); [|split; [split; auto|reflexivity]]. rewrite <- H0. destruct (anderson_point _ _ _ _) as [[pt|]|]; [|split; [split; auto|reflexivity]|reflexivity]. cbn [bind].
  destruct (scatter_mt o p _ pt ws) as [wa|]; [|reflexivity]. cbn [bind]. apply (rr_bind R); [pose proof (H5 A ws wa) as H; rewrite <- H0 in H; exact H|]. intros Xa Xa' HRa.
  apply (rr_bind _ _ _ _ _ _ (H4 _ _ HR)). intros v1 v1' Hv. apply (rr_bind _ _ _ _ _ _ (H4 _ _ HRa)). intros v2 v2' Hv2. rewrite (Hv A), (Hv2 A).
  destruct (flt o _ _); split; try reflexivity; split; auto.
Qed.
Lemma bm_inner nf tol km K v ws wsz es : forall w Xw Xw' LK, R Xw Xw' ->
  rr SRm (inner_loop_mt o dm df pen ds d q nf tol km K acc v ws wsz es w Xw LK) (inner_loop_mt o dm' df' pen ds' d' q nf tol km K acc v ws wsz es w Xw' LK).
Proof using H0 H1 H2 H3 H4 H5 H6.
  induction es as [|e es IH]; intros w Xw Xw' LK HR; cbn [inner_loop_mt]; [split; auto|].
  apply (rr_bind SRm); [apply bm_steps; split; auto|]. intros [w1 X1] [w1' X1'] [E HR1]. cbn [fst snd] in *. subst w1'.
  apply (rr_bind (fun a b => SRm (fst a) (fst b) /\ snd a = snd b)).
  { assert (Q : forall b, acc = b -> rr (fun a b => SRm (fst a) (fst b) /\ snd a = snd b) (if b then anderson_accel_mt o dm df pen ds w1 X1 d q ws LK e K v else Ret (w1, X1, LK)) (if b then anderson_accel_mt o dm' df' pen ds' w1 X1' d' q ws LK e K v else Ret (w1, X1', LK))); [|exact (Q acc eq_refl)].
    intros [|] A; [apply bm_accel; auto|split; [split; auto|reflexivity]]. }
  intros [[w2 X2] L2] [[w2' X2'] L2'] [[E2 HR2] E3]. cbn [fst snd] in *. subst w2' L2'.
  specialize (IH w2 X2 X2' L2 HR2). destruct (_ && _); [|exact IH]. apply (rr_bind _ _ _ _ _ _ (H4 _ _ HR2)). intros v1 v2 _.
  rewrite (bm_ocv w2 X2 X2' ws HR2). destruct (opt_cond_violation_mt df' pen ds' w2 X2' ws d' q) as [[sc mx]|]; [|reflexivity]. cbn [bind].
  destruct (wsz =? nf); [destruct (fle o mx tol)|destruct (flt o mx _)]; try exact IH; split; auto.
Qed.
Lemma bm_outer nf s me tol K v it : forall w Xw Xw', R Xw Xw' ->
  outer_loop_mt o dm df pen srt ds d q nf s me tol K acc v it w Xw = outer_loop_mt o dm' df' pen srt ds' d' q nf s me tol K acc v it w Xw'.
Proof using H0 H1 H2 H3 H4 H5 H6.
  induction it as [|it IH]; intros w Xw Xw' HR; cbn [outer_loop_mt]; [reflexivity|]. rewrite (bm_ocv w Xw Xw' _ HR). destruct (opt_cond_violation_mt df' pen ds' w Xw' _ d' q) as [[sc mx]|]; [|reflexivity]. cbn [bind].
  destruct (fle o mx tol); [reflexivity|]. destruct (construct_ws_from_kkt_mt _ _ _ _ _) as [[ws wsz]|]; [|reflexivity]. cbn [bind]. rewrite H0. apply rr_eq. apply (rr_bind SRm); [apply bm_inner, HR|].
  intros [w1 X1] [w1' X1'] [E HR1]. cbn [fst snd] in *. subst w1'. rewrite (IH w1 X1 X1' HR1). destruct (outer_loop_mt _ _ _ _ _ _ _ _ _ _ _ _ _ _ _ _ _ _); reflexivity.
Qed.
End BCD.
Lemma bm_cd {F DM D P DM' D'} (o : FOps F) (dm : DesignMatrix F DM) (df : DatafitMT F DM D) (dm' : DesignMatrix F DM') (df' : DatafitMT F DM' D') (pen : PenaltyMT F P) srt ds ds' d0 d0' q (R : mat F -> mat F -> Prop) s mi me tol K acc v :
  n_tasks (dtargets ds) = n_tasks (dtargets ds') ->
  dm_n_features dm (design_matrix ds) = dm_n_features dm' (design_matrix ds') ->
  rr (fun d d' => dfm_step_size df d = dfm_step_size df' d' /\
    (forall Xw Xw' j, R Xw Xw' -> dfm_gradient_j df d ds Xw j = dfm_gradient_j df' d' ds' Xw' j) /\
    (forall Xw Xw', R Xw Xw' -> rr (fun v v' => acc = true -> v = v') (dfm_value df d ds Xw) (dfm_value df' d' ds' Xw')))
    (dfm_initialize df d0 ds) (dfm_initialize df' d0' ds') ->
  (forall Xw Xw' a j, R Xw Xw' -> rr R (dm_update_mt dm (design_matrix ds) Xw a j) (dm_update_mt dm' (design_matrix ds') Xw' a j)) ->
  (acc = true -> forall ws w, rr R (dm_extrap_mt dm (design_matrix ds) ws w (n_samples (dtargets ds)) (n_tasks (dtargets ds))) (dm_extrap_mt dm' (design_matrix ds') ws w (n_samples (dtargets ds')) (n_tasks (dtargets ds')))) ->
  R (mzeros o (n_samples (dtargets ds)) (n_tasks (dtargets ds))) (mzeros o (n_samples (dtargets ds')) (n_tasks (dtargets ds'))) ->
  block_coordinate_descent o dm df pen srt ds d0 q s mi me tol K acc v = block_coordinate_descent o dm' df' pen srt ds' d0' q s mi me tol K acc v.
Proof.
  intros HT H6 HI H3 H5 H0. unfold block_coordinate_descent. cbv zeta. rewrite H6. destruct (dm_n_features dm' _) as [p|] eqn:Ep; [|reflexivity]. cbn [bind]. apply rr_eq. apply (rr_bind _ _ _ _ _ _ HI). intros d d' (A & B & C).
  rewrite (bm_outer o dm df dm' df' pen srt ds ds' d d' q R acc HT A B H3 C H5 ltac:(congruence) _ _ _ _ _ _ _ _ _ _ H0). rewrite HT. destruct (outer_loop_mt _ _ _ _ _ _ _ _ _ _ _ _ _ _ _ _ _ _); reflexivity.
Qed.
