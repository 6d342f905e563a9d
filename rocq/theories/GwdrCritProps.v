(** Theorems on the selection criteria of GWDR (C136, C137).  Vocabulary: GwrSpec.v.  [aicc] stands for
    GWRBase::AICc as a function of the residual sum of squares and the trace of the hat matrix. *)
From mathcomp Require Import all_ssreflect all_algebra.
From Verif Require Import Outcome GwrModel GwrSpec GwrProofs GwrCases GwdrFitModel GwdrFitProofs
  GwdrCritModel GwdrCritProofs.
Set Implicit Arguments. Unset Strict Implicit. Unset Printing Implicit Defensive.
Import GRing.Theory Num.Theory.
Local Open Scope ring_scope.

(** C136: while bandwidths are to be optimised, or when one bandwidth is zero, a set of variables is
    judged by one ordinary least squares fit: its residual sum of squares, and as trace the number of
    columns.  No weight matters and the telegram is not asked. *)
Theorem C136_global : forall (F : realFieldType) n p (inv : 'M[F]_p -> option 'M[F]_p) aicc
    (optimise : bool) (bws : seq F) (x : 'M[F]_(n, p)) y Ws stop terminated, inverse_contract inv ->
  (optimise \/ exists2 b, b \in bws & b = 0) ->
  gwdr_ivar inv aicc optimise bws x y Ws stop terminated =
  (match inv (x^T *m x) with
   | Some B => if terminated then None
               else aicc (\sum_i (y i ord0 - (x *m (B *m (x^T *m y))) i ord0) ^+ 2) p%:R
   | None => None
   end, terminated) /\
  forall B, inv (x^T *m x) = Some B -> only_minimiser x y (const_mx 1) (B *m (x^T *m y)).
Proof. exact ivar_global. Qed.
Print Assumptions C136_global.
Example C136_global_case : exists v,
  (gwdr_ivar (@exact_inv _ 1) (fun r t => Some (r + t)) false [:: 0; 1] ex_x ex_y [:: ex_W; ex_W]
     (fun _ => true) false).1 = Some v.
Proof. exact ex_global. Qed.

(** C136: otherwise it is judged by the density regression that fit would make of these variables with
    the same weights: its residual sum of squares and the trace of its hat matrix; a failed inverse
    (where that fit throws), a cancellation or an earlier termination gives no value. *)
Theorem C136_local : forall (F : realFieldType) n p (inv : 'M[F]_p -> option 'M[F]_p) aicc storeS
    (bws : seq F) (x : 'M[F]_(n, p)) y Ws stop terminated, (forall b, b \in bws -> b != 0) ->
  (gwdr_ivar inv aicc false bws x y Ws stop terminated).1 =
  match gwdr_fit inv storeS x y Ws stop with
  | Ok (r, false) => if terminated then None else aicc (RSS x y (r_betas r)) (r_shat r).1
  | _ => None
  end.
Proof. exact ivar_local. Qed.
Print Assumptions C136_local.
Example C136_local_case : exists v,
  (gwdr_ivar (@exact_inv _ 1) (fun r t => Some (r + t)) false [:: 2%:R; 1] ex_x ex_y [:: ex_W; ex_W]
     (fun _ => false) false).1 = Some v.
Proof. exact ex_local. Qed.

(** C136: the status becomes terminated only when the weights are used and the telegram says stop. *)
Theorem C136_status : forall (F : realFieldType) n p (inv : 'M[F]_p -> option 'M[F]_p) aicc
    optimise bws (x : 'M[F]_(n, p)) y Ws stop terminated,
  (gwdr_ivar inv aicc optimise bws x y Ws stop terminated).2 =
  (terminated || ~~ (optimise || has (fun b => b == 0) bws) && [exists i, stop i]).
Proof. exact ivar_status_spec. Qed.
Print Assumptions C136_status.

(** C137: the AIC of a set of bandwidths is that of the regression fit makes with these bandwidths,
    whichever of the two inverses is used, provided the general inverse exists where the symmetric does. *)
Theorem C137_criterion_of_fit : forall (F : realFieldType) n p (inv ginv : 'M[F]_p -> option 'M[F]_p) aicc
    storeS (x : 'M[F]_(n, p)) y Ws r, inverse_contract inv -> inverse_contract ginv ->
  (forall A, inv A <> None -> ginv A <> None) ->
  gwdr_fit inv storeS x y Ws (fun _ => false) = Ok (r, false) ->
  gwdr_aic ginv aicc x y Ws (fun _ => false) false = (aicc (RSS x y (r_betas r)) (r_shat r).1, false).
Proof. exact aic_of_fit_spec. Qed.
Print Assumptions C137_criterion_of_fit.
Example C137_case : exists v,
  (gwdr_aic (@exact_inv _ 1) (fun r t => Some (r + t)) ex_x ex_y [:: ex_W; ex_W] (fun _ => false) false).1 = Some v.
Proof. exact ex_aic. Qed.

(** C137: a value means that every location could be fitted: the value is that of coefficients each of
    which is the only minimiser of its residual sum of squares weighted with the products of the
    weights, and of the trace of the hat matrix, which gives the fitted values of every response. *)
Theorem C137_value : forall (F : realFieldType) n p (ginv : 'M[F]_p -> option 'M[F]_p) aicc
    (x : 'M[F]_(n, p)) y (Ws : seq ('I_n -> 'cV[F]_n)) stop terminated v,
  inverse_contract ginv -> (forall W i j, List.In W Ws -> 0 <= W i j ord0) ->
  (gwdr_aic ginv aicc x y Ws stop terminated).1 = Some v ->
  terminated = false /\ (forall i, stop i = false) /\
  exists (b : 'M[F]_(p, n)) (S : 'M[F]_n),
    aicc (\sum_i (y i ord0 - (x *m col i b) i ord0) ^+ 2) (\tr S) = Some v /\
    forall (i : 'I_n) (w : 'cV[F]_n), (forall j, w j ord0 = \prod_(W <- Ws) W i j ord0) ->
      only_minimiser x y w (col i b) /\
      forall y' b', only_minimiser x y' w b' -> (S *m y') i ord0 = (x *m b') i ord0.
Proof. exact aic_value_spec. Qed.
Print Assumptions C137_value.

(** C137: a cancelled or terminated evaluation gives no value and leaves the status terminated. *)
Theorem C137_cancelled : forall (F : realFieldType) n p (ginv : 'M[F]_p -> option 'M[F]_p) aicc
    (x : 'M[F]_(n, p)) y Ws (stop : 'I_n -> bool) (terminated : bool), terminated \/ (exists i, stop i) ->
  gwdr_aic ginv aicc x y Ws stop terminated = (None, true).
Proof. exact aic_never. Qed.
Print Assumptions C137_cancelled.
