(** What it means for a datafit to be right: specification of C13-C17 and C24. *)
From Coq Require Import List ZArith Bool Arith Reals.
From Verif Require Import Ops Arr MDatasets MDatafits MDatafitsMT XR PBase RSum SpecLin SpecData.
Import ListNotations.
Open Scope R_scope.

(** initialisation succeeds; on the fit [X w] of any coefficients [w] the value is [loss (X w)] and
    the reported gradient is the partial derivative of [loss (X w)] in each coefficient *)
Definition gradient_is_derivative {DM D} (df : Datafit xr DM D) (d0 : D) (ds : dataset DM xr)
    (n p : nat) (X : rmat) (loss : (nat -> R) -> R) : Prop :=
  exists d, df_initialize df d0 ds = Ret d /\
  forall w, exists G,
    df_value df d ds (xv n (lin p X w)) = Ret (Fin (loss (lin p X w))) /\
    df_full_grad df d ds (xv n (lin p X w)) = Ret (xv p G) /\
    forall j, (j < p)%nat ->
      df_gradient_j df d ds (xv n (lin p X w)) j = Ret (Fin (G j)) /\
      derivable_pt_lim (fun s => loss (lin p X (set1 w j s))) (w j) (G j).
Definition gradient_is_derivative_mt {DM D} (df : DatafitMT xr DM D) (d0 : D) (ds : dataset DM xr)
    (n p T : nat) (X : rmat) (loss : rmat -> R) : Prop :=
  exists d, dfm_initialize df d0 ds = Ret d /\
  forall W, exists G : rmat,
    dfm_value df d ds (xm n T (lin_mt p X W)) = Ret (Fin (loss (lin_mt p X W))) /\
    dfm_full_grad df d ds (xm n T (lin_mt p X W)) = Ret (xm p T G) /\
    forall j, (j < p)%nat ->
      dfm_gradient_j df d ds (xm n T (lin_mt p X W)) j = Ret (xv T (G j)) /\
      forall t, (t < T)%nat ->
        derivable_pt_lim (fun s => loss (lin_mt p X (set2 W j t s))) (W j t) (G j t).

(** moving coefficient [j] by [c] relates the values as [cmp new (old + c g + L c^2/2)] *)
Definition step_size_bounds {DM D} (cmp : R -> R -> Prop) (df : Datafit xr DM D) (d0 : D)
    (ds : dataset DM xr) (n p : nat) (X : rmat) : Prop :=
  exists d L, df_initialize df d0 ds = Ret d /\ df_step_size df d = xv p L /\
  forall z j c, (j < p)%nat -> exists v v' g,
    df_value df d ds (xv n z) = Ret (Fin v) /\
    df_gradient_j df d ds (xv n z) j = Ret (Fin g) /\
    df_value df d ds (xv n (fun i => z i + c * X i j)) = Ret (Fin v') /\
    cmp v' (v + c * g + L j * c ^ 2 / 2).
Definition step_size_bounds_mt {DM D} (cmp : R -> R -> Prop) (df : DatafitMT xr DM D) (d0 : D)
    (ds : dataset DM xr) (n p T : nat) (X : rmat) : Prop :=
  exists d L, dfm_initialize df d0 ds = Ret d /\ dfm_step_size df d = xv p L /\
  forall Z j c, (j < p)%nat -> exists v v' g,
    dfm_value df d ds (xm n T Z) = Ret (Fin v) /\
    dfm_gradient_j df d ds (xm n T Z) j = Ret (xv T g) /\
    dfm_value df d ds (xm n T (fun i t => Z i t + c t * X i j)) = Ret (Fin v') /\
    cmp v' (v + Sum T (fun t => c t * g t) + L j * Sum T (fun t => c t ^ 2) / 2).

(** two datafits on two datasets compute the same numbers *)
Definition both {A} (a b : res A) : Prop := exists v, a = Ret v /\ b = Ret v.
Definition datafits_agree {DM DM' D D'} (df : Datafit xr DM D) (d0 : D) (ds : dataset DM xr)
    (df' : Datafit xr DM' D') (d0' : D') (ds' : dataset DM' xr) (n p : nat) : Prop :=
  exists d d', df_initialize df d0 ds = Ret d /\ df_initialize df' d0' ds' = Ret d' /\
    df_step_size df d = df_step_size df' d' /\ length (df_step_size df d) = p /\
    forall z, both (df_value df d ds (xv n z)) (df_value df' d' ds' (xv n z)) /\
      both (df_full_grad df d ds (xv n z)) (df_full_grad df' d' ds' (xv n z)) /\
      forall j, (j < p)%nat ->
        both (df_gradient_j df d ds (xv n z) j) (df_gradient_j df' d' ds' (xv n z) j).
Definition datafits_agree_mt {DM DM' D D'} (df : DatafitMT xr DM D) (d0 : D) (ds : dataset DM xr)
    (df' : DatafitMT xr DM' D') (d0' : D') (ds' : dataset DM' xr) (n p T : nat) : Prop :=
  exists d d', dfm_initialize df d0 ds = Ret d /\ dfm_initialize df' d0' ds' = Ret d' /\
    dfm_step_size df d = dfm_step_size df' d' /\ length (dfm_step_size df d) = p /\
    forall Z, both (dfm_value df d ds (xm n T Z)) (dfm_value df' d' ds' (xm n T Z)) /\
      both (dfm_full_grad df d ds (xm n T Z)) (dfm_full_grad df' d' ds' (xm n T Z)) /\
      forall j, (j < p)%nat ->
        both (dfm_gradient_j df d ds (xm n T Z) j) (dfm_gradient_j df' d' ds' (xm n T Z) j).

(** a run of single-coefficient changes: [(j, c)] adds [c] to coefficient [j] *)
Definition bump (w : nat -> R) (u : nat * R) : nat -> R :=
  fun k => if (k =? fst u)%nat then w k + snd u else w k.
Definition bump_mt (W : rmat) (u : nat * (nat -> R)) : rmat :=
  fun k t => if (k =? fst u)%nat then W k t + snd u t else W k t.

(** [m] is the largest of the [f j] (0 when there is none) *)
Definition is_largest (p : nat) (f : nat -> R) (m : R) : Prop :=
  (forall j, (j < p)%nat -> f j <= m) /\
  ((exists j, (j < p)%nat /\ m = f j) \/ (p = 0%nat /\ m = 0)).
