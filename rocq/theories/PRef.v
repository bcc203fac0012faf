(** Reference solver over the reals: both solvers, run on finite data in exact arithmetic, are this
    deterministic program (proved in [PRefCD] and [PRefBCD]).  States are coefficients [W] and
    model fit [Z] as functions of indices; the single-task solver is the case [T = 1]. *)
From Coq Require Import List ZArith Bool Arith Reals Lra Lia.
From Verif Require Import Ops Arr XR SpecPen MUtils MCd PBase RSum SpecLin PNoPanic.
Import ListNotations.
Open Scope R_scope.

Definition toR (x : xr) : R := match x with Fin r => r | _ => 0 end.
(** position of [i] in a list *)
Fixpoint pos (i : nat) (l : list nat) : option nat :=
  match l with
  | [] => None
  | a :: l' => if (i =? a)%nat then Some 0%nat else match pos i l' with Some k => Some (S k) | None => None end
  end.

Record problem : Type := Problem {
  pn : nat; pp : nat; pT : nat;
  pX : rmat;
  pf : rmat -> R;
  pg : rmat -> nat -> nat -> R;
  pL : nat -> R;
  pprox : list R -> R -> list R;
  ppv : list R -> R;
  pdist : list R -> list R -> R
}.

Section Ref.
Variable (P : problem) (srt : list xr -> list nat).
Local Notation p := (pp P). Local Notation T := (pT P).

Definition row (W : rmat) (j : nat) : list R := tab T (W j).
Definition rupd (W Z : rmat) (j : nat) : list R :=
  pprox P (tab T (fun t => W j t - pg P Z j t / pL P j)) (1 / pL P j).
Definition rstep (st : rmat * rmat) (j : nat) : rmat * rmat :=
  let '(W, Z) := st in
  if Reqb (pL P j) 0 then (W, Z)
  else
    let u := rupd W Z j in
    (fun i t => if (i =? j)%nat then nth t u 0 else W i t,
     fun i t => Z i t + (nth t u 0 - W j t) * pX P i j).
Definition robj (W Z : rmat) : R := pf P Z + Sum p (fun j => ppv P (row W j)).
Definition rdist (W Z : rmat) (j : nat) : R := pdist P (row W j) (row (pg P Z) j).
Definition rkmax (W Z : rmat) (ws : list nat) : xr := fold_max xops NInf (map (fun j => Fin (rdist W Z j)) ws).
Definition rnz (W : rmat) (j : nat) : bool := negb (Reqb (norm2 (row W j)) 0).
Definition rsel (W Z : rmat) (ws0 : nat) : res (list nat * nat) :=
  select xops srt (rnz W) p (tab p (fun j => Fin (rdist W Z j))) ws0.
Definition rstore (H : rmat) (r : nat) (W : rmat) (ws : list nat) : rmat :=
  fun a c => if (a =? r)%nat then nth c (concat (map (row W) ws)) 0 else H a c.
Definition rscatter (pt : list xr) (ws : list nat) : rmat :=
  fun i t => match pos i ws with Some k => toR (nth (k * T + t) pt NaN) | None => 0 end.
Definition rfit (V : rmat) (ws : list nat) : rmat := fun i t => Rsum (map (fun j => pX P i j * V j t) ws).
Definition raccel (W Z H : rmat) (ws : list nat) (e K : nat) : res (rmat * rmat * rmat) :=
  let H' := rstore H (e mod S K) W ws in
  if (e mod S K =? K)%nat then
    pt <- anderson_point xops (xm (S K) (length ws * T) H') (length ws * T) K ;;
    match pt with
    | None => Ret (W, Z, H')
    | Some pt =>
        let V := rscatter pt ws in
        if Rltb (robj V (rfit V ws)) (robj W Z) then Ret (V, rfit V ws, H') else Ret (W, Z, H')
    end
  else Ret (W, Z, H').
Fixpoint rinner (tol kmax : xr) (K : nat) (acc : bool) (ws : list nat) (epochs : list nat) (W Z H : rmat)
  : res (rmat * rmat) :=
  match epochs with
  | [] => Ret (W, Z)
  | e :: es =>
      let '(W1, Z1) := fold_left rstep ws (W, Z) in
      '(W2, Z2, H2) <- (if acc then raccel W1 Z1 H ws e K else Ret (W1, Z1, H)) ;;
      let next := rinner tol kmax K acc ws es W2 Z2 H2 in
      if (0 <? e)%nat && (e mod 10 =? 0)%nat then
        if (length ws =? p)%nat then
          if xle (rkmax W2 Z2 ws) tol then Ret (W2, Z2) else next
        else
          if xlt (rkmax W2 Z2 ws) (xmul (xlit 3 10) kmax) then Ret (W2, Z2) else next
      else next
  end.
Fixpoint router (tol : xr) (K : nat) (acc : bool) (ws0 me it : nat) (W Z : rmat) : res (rmat * rmat) :=
  match it with
  | O => Ret (W, Z)
  | S it' =>
      if xle (rkmax W Z (seq 0 p)) tol then Ret (W, Z)
      else
        '(ws, _) <- rsel W Z ws0 ;;
        '(W', Z') <- rinner tol (rkmax W Z (seq 0 p)) K acc ws (seq 0 me) W Z (fun _ _ => 0) ;;
        router tol K acc ws0 me it' W' Z'
  end.
Definition rsolve (tol : xr) (K : nat) (acc : bool) (ws0 me it : nat) : res (rmat * rmat) :=
  router tol K acc (Nat.min ws0 p) me it (fun _ _ => 0) (fun _ _ => 0).
End Ref.

(** *** selection only looks at features below [p] *)
Lemma count_ext nz nz' p : (forall j, (j < p)%nat -> nz j = nz' j) -> count nz p = count nz' p.
Proof.
  induction p as [|p IH]; intros H; [reflexivity|]. rewrite !count_S. rewrite H by lia. rewrite IH by (intros; apply H; lia). reflexivity.
Qed.
Lemma select_ext srt nz nz' p k k' ws0 : (forall j, (j < p)%nat -> nz j = nz' j) ->
  (forall j, (j < p)%nat -> nth j k (Fin 0) = nth j k' (Fin 0)) -> select xops srt nz p k ws0 = select xops srt nz' p k' ws0.
Proof.
  intros H H'. unfold select. rewrite (count_ext nz nz') by auto. replace (marked xops nz' p k') with (marked xops nz p k); auto.
  unfold marked. apply tab_ext. intros j Hj. rewrite H by auto. destruct (nz' j); auto.
Qed.
Lemma pos_In i l : In i l -> exists k, pos i l = Some k /\ (k < length l)%nat /\ nth k l 0%nat = i.
Proof.
  induction l as [|a l IH]; intros H; [destruct H|]. simpl. destruct (Nat.eqb_spec i a) as [->|Hne].
  - exists 0%nat. simpl. repeat split; auto. lia.
  - destruct H as [->|H]; [lia|]. destruct (IH H) as (k & -> & Hk & E). exists (S k). simpl. repeat split; auto. lia.
Qed.
Lemma pos_notin i l : ~ In i l -> pos i l = None.
Proof.
  induction l as [|a l IH]; intros H; simpl; auto. destruct (Nat.eqb_spec i a) as [->|Hne]; [exfalso; apply H; left; auto|].
  rewrite IH; auto. intros Hi. apply H. right; auto.
Qed.
Lemma pos_nth l : NoDup l -> forall k, (k < length l)%nat -> pos (nth k l 0%nat) l = Some k.
Proof.
  induction 1 as [|a l Hn ND IH]; intros k Hk; simpl in Hk; [lia|]. destruct k as [|k]; simpl; [rewrite Nat.eqb_refl; auto|].
  destruct (Nat.eqb_spec (nth k l 0%nat) a) as [E|E]; [exfalso; apply Hn; rewrite <- E; apply nth_In; lia|]. rewrite IH by lia. auto.
Qed.
