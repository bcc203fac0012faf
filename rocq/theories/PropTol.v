(** Property theorems C96: the stopping tolerance.  Exact arithmetic; [fit m] is a call with
    iteration budget [m] (see [SpecOpt]). *)
From Coq Require Import List ZArith Bool Arith Lia Reals.
From Verif Require Import Ops Arr MUtils MDatasets MDatafits MDatafitsMT MPenalties MBlockPenalties MCd MBcd MHyper MEstimators XR RSum SpecPen SpecLin SpecData SpecDatafit SpecSolve SpecOpt SpecTol PLaws PTol PDataEx POptEx PTolEx.
Import ListNotations.
Open Scope R_scope.

(** [s'], [fit']: the same call with a looser tolerance *)
Theorem C96_stricter_never_hurts srt (VS : valid_sort xops srt) n p X y l k s s' fit fit' : (1 <= n)%nat ->
  single_fit srt n p X y l k s fit -> single_fit srt n p X y l k s' fit' -> accepted fit' -> targets_ok l n y -> steps_ok Rle k l n p X ->
  same_but_tolerance s s' -> stricter (s_tolerance s) (s_tolerance s') -> forall m v, fit m = Ret (Ok v) ->
  exists w w', v = xv p w /\ fit' m = Ret (Ok (xv p w')) /\
    objective (loss1 l n y) p X (pen1 k) w <= objective (loss1 l n y) p X (pen1 k) w'.
Proof. exact (fun Hn HF HF' HA HY HS HE HT m v => c96_single srt VS n p Hn X y l k s s' fit fit' HF' HA HF HY HS m v HE HT). Qed.
Print Assumptions C96_stricter_never_hurts.
Theorem C96_stricter_never_hurts_multitask srt (VS : valid_sort xops srt) n p T X Y k s s' fit fit' : (1 <= n)%nat ->
  multi_fit srt n p T X Y k s fit -> multi_fit srt n p T X Y k s' fit' -> accepted fit' -> steps_ok_mt Rle k n p X ->
  same_but_tolerance s s' -> stricter (s_tolerance s) (s_tolerance s') -> forall m v, fit m = Ret (Ok v) ->
  exists W W', v = xm p T W /\ fit' m = Ret (Ok (xm p T W')) /\
    objective_mt (quad_loss_mt n T Y) p T X (penT k) W <= objective_mt (quad_loss_mt n T Y) p T X (penT k) W'.
Proof. exact (fun Hn HF HF' HA HS HE HT m v => c96_multi srt VS n p Hn T X Y k s s' fit fit' HF' HA HF HS m v HE HT). Qed.
Print Assumptions C96_stricter_never_hurts_multitask.
(** an infinite tolerance is accepted and gives the null model, without a panic *)
Theorem C96_infinite srt (VS : valid_sort xops srt) n p X y l k s fit : (1 <= n)%nat -> single_fit srt n p X y l k s fit -> accepted fit -> s_tolerance s = PInf ->
  forall m, fit m = Ret (Ok (xv p (fun _ => 0))).
Proof. exact (fun Hn HF HA HT m => c96_inf srt VS n p Hn X y l k s fit HF HA m HT). Qed.
Print Assumptions C96_infinite.
Theorem C96_infinite_multitask srt (VS : valid_sort xops srt) n p T X Y k s fit : (1 <= n)%nat -> multi_fit srt n p T X Y k s fit -> accepted fit -> s_tolerance s = PInf ->
  forall m, fit m = Ret (Ok (xm p T (fun _ _ => 0))).
Proof. exact (fun Hn HF HA HT m => c96_inf_mt srt VS n p Hn T X Y k s fit HF HA m HT). Qed.
Print Assumptions C96_infinite_multitask.
(** the converse of the first part of C96_stricter_never_hurts, that a stricter call returns
    whenever the looser one does, is false *)
Theorem C96_stricter_returns_refuted : exists s s' fit fit',
  single_fit (dsort xops) 3 3 (entry exE) oy Squared (LassoPen (1/10)) s fit /\ single_fit (dsort xops) 3 3 (entry exE) oy Squared (LassoPen (1/10)) s' fit' /\ accepted fit /\
  same_but_tolerance s s' /\ stricter (s_tolerance s) (s_tolerance s') /\ fit' 1%nat = Ret (Ok (xv 3 (fun _ => 0))) /\ fit 1%nat = Panic POob.
Proof. exact strict_panics. Qed.
Print Assumptions C96_stricter_returns_refuted.
(** the MCP example of C25 with all tolerances which validation accepts *)
Example C96_nonvacuous : (forall t, single_fit (dsort xops) 3 3 (entry exE) oy Squared (McpPen (1/10) 3) (settings (tpr t)) (fit_tol t)) /\
  (forall t, t = NaN \/ (exists r, 0 <= r /\ t = Fin r) \/ t = PInf -> accepted (fit_tol t)) /\ (forall t t', same_but_tolerance (settings (tpr t)) (settings (tpr t'))) /\
  (stricter NaN (Fin 0) /\ stricter (Fin (1/100)) (Fin (1/10)) /\ stricter (Fin (1/10)) PInf /\ ~ stricter PInf (Fin 1) /\
   (exists m w, fit_tol (Fin (1/100)) m = Ret (Ok (xv 3 w)) /\ exists j, (j < 3)%nat /\ w j <> 0) /\ forall m, fit_tol PInf m = Ret (Ok (xv 3 (fun _ => 0)))) /\
  targets_ok Squared 3 oy /\ steps_ok Rle (McpPen (1/10) 3) Squared 3 3 (entry exE) /\ valid_sort xops (dsort xops).
Proof. exact (conj tol_fit (conj tol_accepted (conj tol_same (conj tol_ex (conj (proj1 ex_ok) (conj (proj1 (proj2 (proj2 (proj2 ex_ok)))) xr_sort)))))). Qed.
