(** Theorems on the regressions of GWDR (C102, C103).  Vocabulary: GwrSpec.v. *)
From mathcomp Require Import all_ssreflect all_algebra.
From Verif Require Import Outcome GwrModel GwrSpec GwrProofs GwrCases GwdrFitModel GwdrFitProofs.
Set Implicit Arguments. Unset Strict Implicit. Unset Printing Implicit Defensive.
Import GRing.Theory Num.Theory.
Local Open Scope ring_scope.

(** C102: the coefficients of observation i are the only minimiser of the residual sum of squares
    weighted with the products of the weights of the dimensions. *)
Theorem C102_product_least_squares : forall (F : realFieldType) n p (inv : 'M[F]_p -> option 'M[F]_p)
    storeS (x : 'M[F]_(n, p)) y (Ws : seq ('I_n -> 'cV[F]_n)) r,
  inverse_contract inv -> gwdr_fit inv storeS x y Ws (fun _ => false) = Ok (r, false) ->
  (forall W i j, List.In W Ws -> 0 <= W i j ord0) ->
  forall (i : 'I_n) (w : 'cV[F]_n), (forall j, w j ord0 = \prod_(W <- Ws) W i j ord0) ->
  only_minimiser x y w (col i (r_betas r)).
Proof. exact gwdr_min. Qed.
Print Assumptions C102_product_least_squares.
(** C102: the whole result (coefficients, standard errors, traces, diagonal of Q, hat matrix) is that
    of basic GWR with the products as weights, cancellation and failure included; C44-C49 apply to it. *)
Theorem C102_is_gwr : forall (F : realFieldType) n p (inv : 'M[F]_p -> option 'M[F]_p)
    storeS (x : 'M[F]_(n, p)) y Ws stop,
  match gwdr_fit inv storeS x y Ws stop, fit_core inv storeS false 0 n x y (dims_weight Ws) stop with
  | Ok (r, b), Ok (s, b') =>
      [/\ b = b', r_betas r = betas s, r_se r = se2 s, r_shat r = (shat0 s, shat1 s) & r_qdiag r = qdiag s /\ r_S r = rowS s]
  | Throw, Throw => True
  | UB, UB => True
  | _, _ => False
  end.
Proof. exact gwdr_is_gwr. Qed.
Print Assumptions C102_is_gwr.
Example C102_case : exists r,
  gwdr_fit (@exact_inv _ 1) true ex_x ex_y [:: ex_W; ex_W] (fun _ => false) = Ok (r, false).
Proof. exact ex_gwdr. Qed.

(** C103: the cross-validation value is the sum of the squared errors of predicting every observation
    from coefficients fitted to the others. *)
Theorem C103_leave_one_out : forall (F : realFieldType) n p (inv : 'M[F]_p -> option 'M[F]_p)
    (x : 'M[F]_(n, p)) y (Ws : seq ('I_n -> 'cV[F]_n)) v,
  inverse_contract inv -> (forall W i j, List.In W Ws -> 0 <= W i j ord0) ->
  gwdr_cv inv x y Ws (fun _ => false) false = Some v ->
  exists b : 'M[F]_(p, n), v = \sum_i (y i ord0 - (x *m col i b) i ord0) ^+ 2 /\
    forall (i : 'I_n) (w : 'cV[F]_n), w i ord0 = 0 -> (forall j, j != i -> w j ord0 = \prod_(W <- Ws) W i j ord0) ->
      only_minimiser x y w (col i b).
Proof. exact gwdr_loo. Qed.
Print Assumptions C103_leave_one_out.
Example C103_case : exists v, gwdr_cv (@exact_inv _ 1) ex_x ex_y [:: ex_W; ex_W] (fun _ => false) false = Some v.
Proof. exact ex_gwdr_cv. Qed.
