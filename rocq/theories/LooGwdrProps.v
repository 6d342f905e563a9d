(** C173 and C177 for the regression with several dimensions (GWDR): the score of the cross-validation from the one fit, and the
    bounds of its effective number of parameters.

    src/gwmodelpp/GWDR.cpp:207-255 (the fit), 322-366 (the score). *)
From mathcomp Require Import all_ssreflect all_algebra.
From Verif Require Import Outcome GwrModel GwrSpec GwrCases GwdrFitModel LooGwdr.
Set Implicit Arguments. Unset Strict Implicit. Unset Printing Implicit Defensive.
Import GRing.Theory Num.Theory.
Local Open Scope ring_scope.

(** [Ws]: the weights of each dimension; [r_S r i]: row [i] of the hat matrix. *)
Theorem C177_dimensions : forall (F : realFieldType) (n p : nat) (inv : 'M[F]_p -> option 'M[F]_p) (x : 'M[F]_(n, p)) (y : 'cV[F]_n)
    (Ws : seq ('I_n -> 'cV[F]_n)) r (stop : 'I_n -> bool) (t : bool) (v : F), inverse_contract inv ->
  (forall W i j, List.In W Ws -> 0 <= W i j ord0) ->
  gwdr_fit inv true x y Ws (fun _ => false) = Ok (r, false) -> gwdr_cv inv x y Ws stop t = Some v ->
  (forall i : 'I_n, 0 <= r_S r i ord0 i < 1) /\
  (v = \sum_i ((y i ord0 - \sum_a x i a * r_betas r a i) / (1 - r_S r i ord0 i)) ^+ 2) /\
  \sum_i (y i ord0 - \sum_a x i a * r_betas r a i) ^+ 2 <= v.
Proof. exact dims_score. Qed.
Print Assumptions C177_dimensions.
(** With an inverse that fails on singular matrices only, there is a score exactly when no own entry of the hat matrix is one. *)
Theorem C177_dimensions_possible : forall (F : realFieldType) (n p : nat) (x : 'M[F]_(n, p)) (y : 'cV[F]_n) (Ws : seq ('I_n -> 'cV[F]_n)) r,
  gwdr_fit (@exact_inv F p) true x y Ws (fun _ => false) = Ok (r, false) ->
  (exists v, gwdr_cv (@exact_inv F p) x y Ws (fun _ => false) false = Some v) <-> (forall i : 'I_n, r_S r i ord0 i <> 1).
Proof. exact dims_possible. Qed.
Print Assumptions C177_dimensions_possible.
(** The two observations of C177_case with two equal dimensions. *)
Example C177_dimensions_case : exists r v, gwdr_fit (@exact_inv _ 1) true ex_x ex_y [:: ex_W; ex_W] (fun _ => false) = Ok (r, false) /\
  gwdr_cv (@exact_inv _ 1) ex_x ex_y [:: ex_W; ex_W] (fun _ => false) false = Some v.
Proof. exact dims_case. Qed.

(** C173: weights between zero and one in every dimension, one at the location itself. *)
Theorem C173_dimensions : forall (F : realFieldType) (n p : nat) (inv : 'M[F]_p -> option 'M[F]_p) (storeS : bool) (x : 'M[F]_(n, p)) (y : 'cV[F]_n)
    (Ws : seq ('I_n -> 'cV[F]_n)) r, inverse_contract inv -> (0 < n)%N ->
  (forall W i j, List.In W Ws -> 0 <= W i j ord0 <= 1) -> (forall W i, List.In W Ws -> W i i ord0 = 1) ->
  gwdr_fit inv storeS x y Ws (fun _ => false) = Ok (r, false) ->
  [/\ p%:R <= (r_shat r).1, (r_shat r).1 <= 2%:R * (r_shat r).1 - (r_shat r).2, 2%:R * (r_shat r).1 - (r_shat r).2 <= n%:R &
      2%:R * (r_shat r).1 - (r_shat r).2 = n%:R -> forall i, \sum_a x i a * r_betas r a i = y i ord0].
Proof. exact dims_bounds. Qed.
Print Assumptions C173_dimensions.
Example C173_dimensions_case : (forall W i j, List.In W [:: ex_W; ex_W] -> 0 <= W i j ord0 <= 1) /\ (forall W i, List.In W [:: ex_W; ex_W] -> W i i ord0 = 1).
Proof. exact (conj ex_unit ex_own). Qed.
