(** C172: generalised GWR does not compute local maximum likelihood estimates.  Everything used by the statements is in
    [MleSpec], [GlmSpec] and the model ([GlmModel], [GlmCritModel]). *)
From Coq Require Import Reals Arith.
From Verif Require Import Outcome XReal Sums DiagModel GlmModel GlmSpec GlmCritModel GlmCritProofs MleSpec MleMain MleCases.
Local Open Scope R_scope.

(** The loops of GWRGeneralized.cpp:763-801 and 847-887, with any number of rounds (no early stop: a tolerance of zero or less).
    [B k] are the coefficients of round k + 1.  If they converge, the limit solves equations that differ from the local score
    equations by the terms on the right: every observation is linearised at the coefficients of its own location. *)
Theorem C172_limit_equations : forall fam n p x y solve llik tol wt adj0 r,
  solves_wls n p x solve -> (forall i j, (i < n)%nat -> (j < n)%nat -> 0 <= wt i j) -> valid_response fam n y -> tol <= 0 ->
  (forall k, irls_run fam y (regress_with n p x solve (fun i j => XF (wt i j))) llik tol k adj0 = Ok (r k)) ->
  exists B : nat -> nat -> nat -> R,
    (forall k, numbers n (mean (r (S k))) (fun i => mean_of fam (lin p x (B k i) i))) /\
    (forall k, scoring_round fam n p x y wt (B k) (B (S k))) /\
    forall L, (forall i a, (i < n)%nat -> (a < p)%nat -> Un_cv (fun k => B k i a) (L i a)) ->
    forall i a, (i < n)%nat -> (a < p)%nat ->
      (bigsum n (fun j => wt i j * x j a * (y j - mean_of fam (lin p x (L j) j))) =
       bigsum n (fun j => wt i j * x j a * variance_of fam (mean_of fam (lin p x (L j) j)) * (lin p x (L i) j - lin p x (L j) j)))%R.
Proof. exact limit_main. Qed.
Print Assumptions C172_limit_equations.
Example C172_limit_case : solves_wls 3 1 (fun _ _ => 1) mean3 /\ (forall i j, (i < 3)%nat -> (j < 3)%nat -> 0 <= wt3 i j) /\ valid_response Poisson 3 (y3 0) /\
  exists r, forall k, irls_run Poisson (y3 0) (regress_with 3 1 (fun _ _ => 1) mean3 (fun i j => XF (wt3 i j))) (fun _ => XF (-1)) 0 k (fun _ => XF 0) = Ok (r k).
Proof. exact limit_case. Qed.

(** When all locations have the same weights, there is one coefficient vector per round, and if these converge, the limit is the
    maximum likelihood estimate. *)
Theorem C172_same_weights : forall fam n p x y solve llik tol w adj0 r,
  solves_wls n p x solve -> (forall j, (j < n)%nat -> 0 <= w j) -> valid_response fam n y -> tol <= 0 ->
  (forall k, irls_run fam y (regress_with n p x solve (fun _ j => XF (w j))) llik tol k adj0 = Ok (r k)) ->
  exists B : nat -> nat -> R,
    (forall k, numbers n (mean (r (S k))) (fun i => mean_of fam (lin p x (B k) i))) /\
    forall L, (forall a, (a < p)%nat -> Un_cv (fun k => B k a) (L a)) -> max_likelihood fam n p x y w L.
Proof. exact same_main. Qed.
Print Assumptions C172_same_weights.
(** Shares 0, 1/2 and 1: every round gives the estimate, coefficient zero. *)
Example C172_same_case : solves_wls 3 1 (fun _ _ => 1) mean3 /\ valid_response Binomial 3 half3 /\
  exists r, (forall k, irls_run Binomial half3 (regress_with 3 1 (fun _ _ => 1) mean3 (fun _ _ => XF 1)) (fun _ => XF (-1)) 0 k (fun _ => XF 0) = Ok (r k)) /\
    (forall k, numbers 3 (mean (r k)) (fun _ => mean_of Binomial 0)) /\ max_likelihood Binomial 3 1 (fun _ _ => 1) half3 (fun _ => 1) (fun _ => 0).
Proof. exact same_case. Qed.

(** Poisson model with an intercept: the coefficients can only converge to the local maximum likelihood estimates [b] if, wherever
    location i gives weight to j, the estimates of i and of j predict the same at j. *)
Theorem C172_local_partial : forall n p x y solve llik tol wt adj0 r a0 (b : nat -> nat -> R),
  solves_wls n p x solve -> (forall i j, (i < n)%nat -> (j < n)%nat -> 0 <= wt i j) -> valid_response Poisson n y -> tol <= 0 ->
  (forall k, irls_run Poisson y (regress_with n p x solve (fun i j => XF (wt i j))) llik tol k adj0 = Ok (r k)) ->
  (a0 < p)%nat -> (forall j, (j < n)%nat -> x j a0 = 1) ->
  (forall i, (i < n)%nat -> max_likelihood Poisson n p x y (wt i) (b i)) ->
  exists B : nat -> nat -> nat -> R,
    (forall k, numbers n (mean (r (S k))) (fun i => exp (lin p x (B k i) i))) /\
    (forall k, scoring_round Poisson n p x y wt (B k) (B (S k))) /\
    ((forall i a, (i < n)%nat -> (a < p)%nat -> Un_cv (fun k => B k i a) (b i a)) ->
     forall i j, (i < n)%nat -> (j < n)%nat -> 0 < wt i j -> lin p x (b i) j = lin p x (b j) j).
Proof. exact local_main. Qed.
Print Assumptions C172_local_partial.
(** Responses 0, 0, 1: the local estimates of the mean are 1/7, 2/11 and 12/19. *)
Example C172_local_case : solves_wls 3 1 (fun _ _ => 1) mean3 /\ (forall i j, (i < 3)%nat -> (j < 3)%nat -> 0 < wt3 i j) /\ valid_response Poisson 3 (y3 0) /\
  (exists r, forall k, irls_run Poisson (y3 0) (regress_with 3 1 (fun _ _ => 1) mean3 (fun i j => XF (wt3 i j))) (fun _ => XF (-1)) 0 k (fun _ => XF 0) = Ok (r k)) /\
  (forall i, (i < 3)%nat -> max_likelihood Poisson 3 1 (fun _ _ => 1) (y3 0) (wt3 i) (fun _ => ln (ms3 i))).
Proof. exact local_case. Qed.

(** So in general they do not: all rounds succeed, and the fitted means do not tend to the means of the local maximum likelihood
    estimates, however many rounds. *)
Theorem C172_local_refuted : exists n y wt (solve : xvec -> xvec -> outcome xvec) llik adj0 (r : nat -> irls) (m : nat -> nat -> R) (ms : nat -> R),
  solves_wls n 1 (fun _ _ => 1) solve /\ (forall i j, (i < n)%nat -> (j < n)%nat -> 0 < wt i j /\ wt i j = wt j i) /\ valid_response Poisson n y /\
  (forall k, irls_run Poisson y (regress_with n 1 (fun _ _ => 1) solve (fun i j => XF (wt i j))) llik 0 k adj0 = Ok (r k)) /\
  (forall k, numbers n (mean (r k)) (m k)) /\
  (forall i, (i < n)%nat -> 0 < ms i /\ max_likelihood Poisson n 1 (fun _ _ => 1) y (wt i) (fun _ => ln (ms i))) /\
  ~ (forall i, (i < n)%nat -> Un_cv (fun k => m k i) (ms i)).
Proof. exact local_witness. Qed.
Print Assumptions C172_local_refuted.
