(** C179, continued: the price of weighting, and the regression with several dimensions (GWDR).

    src/gwmodelpp/GWRBasic.cpp:246-289, src/gwmodelpp/GWDR.cpp:207-255. *)
From mathcomp Require Import all_ssreflect all_algebra.
From Verif Require Import Outcome GwrModel GwrSpec GwrCases GwdrFitModel UnbSpec UnbMain UnbMore.
Set Implicit Arguments. Unset Strict Implicit. Unset Printing Implicit Defensive.
Import GRing.Theory Num.Theory.
Local Open Scope ring_scope.

(** Whatever the weights: the factor of the variance of a local coefficient is not below that of the fit with equal weights, and if the
    two are the same then so are the coefficients. *)
Theorem C179_price : forall (F : realFieldType) (n p : nat) (inv : 'M[F]_p -> option 'M[F]_p) (x : 'M[F]_(n, p)) (y y1 : 'cV[F]_n)
    (W : 'I_n -> 'cV[F]_n) (storeS storeC storeS1 storeC1 : bool) (lo hi lo1 hi1 : nat) s s1 (i i1 : 'I_n) (a : 'I_p), inverse_contract inv ->
  fit_core inv storeS storeC lo hi x y W (fun _ => false) = Ok (s, false) ->
  fit_core inv storeS1 storeC1 lo1 hi1 x y1 (fun _ => const_mx 1) (fun _ => false) = Ok (s1, false) ->
  (lo <= i < hi)%N -> (lo1 <= i1 < hi1)%N ->
  se2 s1 a i1 <= se2 s a i /\ (y1 = y -> se2 s1 a i1 = se2 s a i -> betas s a i = betas s1 a i1).
Proof. exact (fun F n p inv x y y1 W sS sC sS1 sC1 lo hi lo1 hi1 s s1 i i1 a c E E1 => price_main c E E1 a). Qed.
Print Assumptions C179_price.
Example C179_price_case : exists s s1, fit_core (@exact_inv _ 1) true true 0 2 ex_x ex_y ex_W (fun _ => false) = Ok (s, false) /\
  fit_core (@exact_inv _ 1) true true 0 2 ex_x ex_y (fun _ => const_mx 1) (fun _ => false) = Ok (s1, false).
Proof. exact price_case. Qed.

(** Several dimensions: coefficients, standard errors and the variance as in C179_coefficients and C179_sigma. *)
Theorem C179_dimensions : forall (F : realFieldType) (n p : nat) (inv : 'M[F]_p -> option 'M[F]_p) (storeS : bool) (x : 'M[F]_(n, p))
    (Ws : seq ('I_n -> 'cV[F]_n)) (b : 'cV[F]_p) (T : finType) (P : T -> F) (e : T -> 'cV[F]_n) (v : F) (r : T -> gwdr_result F n p) (t0 : T),
  inverse_contract inv -> uncorrelated P e v ->
  (forall t, gwdr_fit inv storeS x (x *m b + e t) Ws (fun _ => false) = Ok (r t, false)) ->
  (forall (i : 'I_n) a, expect P (fun t => r_betas (r t) a i) = b a ord0) /\
  (forall (i : 'I_n) a, expect P (fun t => (r_betas (r t) a i - b a ord0) ^+ 2) = (v * r_se (r t0) a i)%R) /\
  expect P (fun t => \sum_i ((x *m b + e t) i ord0 - \sum_a x i a * r_betas (r t) a i) ^+ 2) =
    (v * (n%:R - 2%:R * (r_shat (r t0)).1 + (r_shat (r t0)).2))%R.
Proof. exact dims_unbiased. Qed.
Print Assumptions C179_dimensions.
Example C179_dimensions_case : uncorrelated coin_P coin_e 1 /\
  exists r, forall t, gwdr_fit (@exact_inv _ 1) true ex_x (ex_x *m const_mx 1 + coin_e t) [:: ex_W; ex_W] (fun _ => false) = Ok (r t, false).
Proof. exact (conj coin_uncorrelated dims_unb_case). Qed.
