(** Leave-one-out residuals and the hat matrix: what cross-validation measures.

    src/gwmodelpp/GWRBasic.cpp:246-289 (the fit, whose row [i] of [mS] is [si]), 291-318 (the same with [w(i) = 0]), 350-374
    (the score: the sum of the squared leave-one-out residuals).

    The inverse is any that meets [inverse_contract] (GwrSpec.v): what it returns is a left inverse; [exact_inv] returns one
    whenever one exists.  Arithmetic is exact. *)
From mathcomp Require Import all_ssreflect all_algebra.
From Verif Require Import Outcome GwrModel GwrSpec GwrCases LooMain.
Set Implicit Arguments. Unset Strict Implicit. Unset Printing Implicit Defensive.
Import GRing.Theory Num.Theory.
Local Open Scope ring_scope.

Section Loo.
Variables (F : realFieldType) (n p : nat) (inv : 'M[F]_p -> option 'M[F]_p).
Variables (x : 'M[F]_(n, p)) (y : 'cV[F]_n) (W : 'I_n -> 'cV[F]_n).

(** Over any work range, and whatever the weights: the residual of the fit at a location is one minus the location's own entry
    of the hat matrix times the residual of the fit made without that location. *)
Theorem C177_residual (lo hi : nat) (storeC : bool) s (b : 'M[F]_(p, n)) (i : 'I_n) : inverse_contract inv ->
  fit_core inv true storeC lo hi x y W (fun _ => false) = Ok (s, false) ->
  cv_core inv lo hi x y W (fun _ => false) = Ok (b, false) -> (lo <= i < hi)%N ->
  y i ord0 - \sum_a x i a * betas s a i = (1 - rowS s (i - lo)%N ord0 i) * (y i ord0 - \sum_a x i a * b a i).
Proof. exact (fun c => @stored_main F n p inv c storeC lo hi x y W s b i). Qed.

(** With weights that are not negative that entry lies between zero and one, and is not one. *)
Theorem C177_leverage (lo hi : nat) (storeC : bool) s (b : 'M[F]_(p, n)) (i : 'I_n) : inverse_contract inv ->
  (forall j, 0 <= W i j ord0) ->
  fit_core inv true storeC lo hi x y W (fun _ => false) = Ok (s, false) ->
  cv_core inv lo hi x y W (fun _ => false) = Ok (b, false) -> (lo <= i < hi)%N ->
  0 <= rowS s (i - lo)%N ord0 i < 1.
Proof. exact (fun c => @leverage_main F n p inv c storeC lo hi x y W s b i). Qed.

(** So the score is the sum of the squares of the residuals of the one fit, each divided by one minus the location's entry; it
    is never below the residual sum of squares, and equal to it only if each location either has no influence on its own fit or
    is fitted exactly. *)
Theorem C177_score (storeC : bool) s (stop : 'I_n -> bool) (t : bool) (v : F) : inverse_contract inv ->
  (forall i j, 0 <= W i j ord0) ->
  fit_core inv true storeC 0 n x y W (fun _ => false) = Ok (s, false) -> criterion_cv inv x y W stop t = Some v ->
  (v = \sum_i ((y i ord0 - \sum_a x i a * betas s a i) / (1 - stored s i i)) ^+ 2) /\
  \sum_i (y i ord0 - \sum_a x i a * betas s a i) ^+ 2 <= v /\
  (v = \sum_i (y i ord0 - \sum_a x i a * betas s a i) ^+ 2 -> forall i, stored s i i = 0 \/ \sum_a x i a * betas s a i = y i ord0).
Proof. exact (fun c => @score_main F n p inv c storeC x y W s stop t v). Qed.

(** With an inverse that fails on singular matrices only, when the fit goes through, the leave-one-out fit goes through exactly
    when no location of the range has an entry equal to one. *)
Theorem C177_possible (lo hi : nat) (storeC : bool) s :
  fit_core (@exact_inv F p) true storeC lo hi x y W (fun _ => false) = Ok (s, false) ->
  (exists b, cv_core (@exact_inv F p) lo hi x y W (fun _ => false) = Ok (b, false)) <->
  (forall i : 'I_n, (lo <= i < hi)%N -> rowS s (i - lo)%N ord0 i <> 1).
Proof. exact (@exact_main F n p x y W storeC lo hi s). Qed.
End Loo.
Print Assumptions C177_residual.
Print Assumptions C177_leverage.
Print Assumptions C177_score.
Print Assumptions C177_possible.

(** Two observations that weigh each other one half: both fits go through, and so does the criterion. *)
Example C177_case : exists s b v, fit_core (@exact_inv _ 1) true true 0 2 ex_x ex_y ex_W (fun _ => false) = Ok (s, false) /\
  cv_core (@exact_inv _ 1) 0 2 ex_x ex_y ex_W (fun _ => false) = Ok (b, false) /\
  criterion_cv (@exact_inv _ 1) ex_x ex_y ex_W (fun _ => false) false = Some v.
Proof. exact loo_case. Qed.
(** Two observations that do not weigh each other: the fit goes through and no leave-one-out fit does. *)
Example C177_alone : exists s, fit_core (@exact_inv _ 1) true true 0 2 ex_x ex_y solo_W (fun _ => false) = Ok (s, false) /\
  forall b, cv_core (@exact_inv _ 1) 0 2 ex_x ex_y solo_W (fun _ => false) <> Ok (b, false).
Proof. exact solo_case. Qed.
