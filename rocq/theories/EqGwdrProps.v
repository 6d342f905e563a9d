(** C45 and C46 for density regression (GWDR.cpp: fitSerial, with weights that are products over the dimensions).
    Vocabulary: GwrSpec.v. *)
From mathcomp Require Import all_ssreflect all_algebra.
From Verif Require Import Outcome GwrModel GwrSpec GwrCases GwdrFitModel GwdrFitProofs EqGwdr.
Set Implicit Arguments. Unset Strict Implicit. Unset Printing Implicit Defensive.
Import GRing.Theory Num.Theory.
Local Open Scope ring_scope.

(** C45: the response multiplied by a constant plus a combination of the regressors: the coefficients follow at every location, and
    traces, standard error factors and the diagonal of Q stay. *)
Theorem C45_dimensions : forall (F : realFieldType) n p (inv : 'M[F]_p -> option 'M[F]_p), inverse_contract inv ->
  forall storeS (x : 'M[F]_(n, p)) y Ws r c (g : 'cV[F]_p), gwdr_fit inv storeS x y Ws (fun _ => false) = Ok (r, false) ->
  exists r', [/\ gwdr_fit inv storeS x (c *: y + x *m g) Ws (fun _ => false) = Ok (r', false),
    forall i, col i (r_betas r') = c *: col i (r_betas r) + g, r_se r' = r_se r, r_shat r' = r_shat r & r_qdiag r' = r_qdiag r].
Proof. exact response_dims. Qed.
Print Assumptions C45_dimensions.

(** C46: regressors X A instead of X. *)
Theorem C46_dimensions : forall (F : realFieldType) n p (inv : 'M[F]_p -> option 'M[F]_p), inverse_contract inv ->
  forall storeS (x : 'M[F]_(n, p)) y Ws (A : 'M[F]_p) r r', A \in unitmx ->
  gwdr_fit inv storeS x y Ws (fun _ => false) = Ok (r, false) ->
  gwdr_fit inv storeS (x *m A) y Ws (fun _ => false) = Ok (r', false) ->
  [/\ r_betas r' = invmx A *m r_betas r, forall i, (x *m A *m col i (r_betas r')) i ord0 = (x *m col i (r_betas r)) i ord0,
      r_shat r' = r_shat r & r_qdiag r' = r_qdiag r].
Proof. exact regressors_dims. Qed.
Print Assumptions C46_dimensions.

(** Two observations and two dimensions, regressors doubled. *)
Example C46_dimensions_case : (2%:R%:M : 'M[rat]_1) \in unitmx /\ exists r r',
  gwdr_fit (@exact_inv _ 1) true ex_x ex_y [:: ex_W; ex_W] (fun _ => false) = Ok (r, false) /\
  gwdr_fit (@exact_inv _ 1) true (ex_x *m 2%:R%:M) ex_y [:: ex_W; ex_W] (fun _ => false) = Ok (r', false).
Proof. exact ex_double. Qed.
