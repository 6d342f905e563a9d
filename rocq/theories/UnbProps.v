(** C179: what a basic regression reports when the data follow one linear model with uncorrelated errors of equal variance.

    src/gwmodelpp/GWRBasic.cpp:246-289 (the fit), 239-242 (sigma and standard errors); the same loop and the same uses of its
    results in src/gwmodelpp/GWRRobust.cpp:129-168, 238-268 (first fit) and src/gwmodelpp/GTWR.cpp:71-77, 142-180.

    [e t]: the errors in outcome [t], which has probability [P t]; [s t]: what the fit leaves when the response is x b + e t.
    The weights do not depend on the response. *)
From mathcomp Require Import all_ssreflect all_algebra.
From Verif Require Import Outcome GwrModel GwrSpec GwrCases UnbSpec UnbMain.
Set Implicit Arguments. Unset Strict Implicit. Unset Printing Implicit Defensive.
Import GRing.Theory Num.Theory.
Local Open Scope ring_scope.

Section Unb.
Variables (F : realFieldType) (n p : nat) (inv : 'M[F]_p -> option 'M[F]_p) (storeS storeC : bool).
Variables (x : 'M[F]_(n, p)) (W : 'I_n -> 'cV[F]_n) (b : 'cV[F]_p).
Variables (T : finType) (P : T -> F) (e : T -> 'cV[F]_n) (v : F) (s : T -> fitted_model F n p).

(** The mean of every local coefficient is the coefficient of the model; the mean of its squared error is the variance of the errors
    times the factor the fit keeps for its standard error. *)
Theorem C179_coefficients (lo hi : nat) (i : 'I_n) (a : 'I_p) (t0 : T) : inverse_contract inv -> uncorrelated P e v ->
  (forall t, fit_core inv storeS storeC lo hi x (x *m b + e t) W (fun _ => false) = Ok (s t, false)) -> (lo <= i < hi)%N ->
  expect P (fun t => betas (s t) a i) = b a ord0 /\
  expect P (fun t => (betas (s t) a i - b a ord0) ^+ 2) = (v * se2 (s t0) a i)%R.
Proof. exact (fun c u H r => conj (mean_main c u H a r) (error_main c u H a t0 r)). Qed.

(** The mean of the residual sum of squares is the variance times n - 2 tr S + tr S'S, the number by which the program divides it. *)
Theorem C179_sigma (t0 : T) : inverse_contract inv -> uncorrelated P e v ->
  (forall t, fit_core inv storeS storeC 0 n x (x *m b + e t) W (fun _ => false) = Ok (s t, false)) ->
  expect P (fun t => \sum_i ((x *m b + e t) i ord0 - \sum_a x i a * betas (s t) a i) ^+ 2) =
  v * (n%:R - 2%:R * shat0 (s t0) + shat1 (s t0)).
Proof. exact (fun c u H => sigma_sum c u H t0). Qed.

(** The variance of a residual comes from the row of its location in I - S; what the fit accumulates as [mQDiag], by which the
    program studentises the residual, comes from the column. *)
Theorem C179_residual_partial (i : 'I_n) (t0 : T) : inverse_contract inv -> uncorrelated P e v ->
  (forall t, fit_core inv true storeC 0 n x (x *m b + e t) W (fun _ => false) = Ok (s t, false)) ->
  [/\ expect P (fun t => (x *m b + e t) i ord0 - \sum_a x i a * betas (s t) a i) = 0,
      expect P (fun t => ((x *m b + e t) i ord0 - \sum_a x i a * betas (s t) a i) ^+ 2) = (v * \sum_j ((i == j)%:R - stored (s t0) i j) ^+ 2)%R,
      qdiag (s t0) i ord0 = (\sum_j ((i == j)%:R - stored (s t0) j i) ^+ 2)%R &
      (stored (s t0))^T = stored (s t0) ->
        expect P (fun t => ((x *m b + e t) i ord0 - \sum_a x i a * betas (s t) a i) ^+ 2) = (v * qdiag (s t0) i ord0)%R].
Proof. exact (fun c u H => residual_props c u H i t0). Qed.
End Unb.
Print Assumptions C179_coefficients.
Print Assumptions C179_sigma.
Print Assumptions C179_residual_partial.

(** Two observations whose errors are plus or minus one, each with probability one half, independently: the hypotheses hold. *)
Example C179_case : uncorrelated coin_P coin_e 1 /\ forall b : 'cV[rat]_1, exists s, forall t,
  fit_core (@exact_inv _ _) true true 0 2 ex_x (ex_x *m b + coin_e t) ex_W (fun _ => false) = Ok (s t, false).
Proof. exact (conj coin_uncorrelated coin_fits). Qed.
(** There the residual of the second observation has variance 5/81, and the program divides it by the root of 10/81 times the
    variance of the errors: it is not studentised.  The weights are symmetric and lie between zero and one. *)
Theorem C179_studentised_refuted : exists s : bool * bool -> fitted_model [realFieldType of rat] 2 1,
  (forall t, fit_core (@exact_inv _ _) true true 0 2 ex_x (ex_x *m const_mx 1 + coin_e t) ex_W (fun _ => false) = Ok (s t, false)) /\
  forall t0, expect coin_P (fun t => ((ex_x *m const_mx 1 + coin_e t) ord_max ord0 - \sum_a ex_x ord_max a * betas (s t) a ord_max) ^+ 2) = 5%:R / 81%:R /\
    qdiag (s t0) ord_max ord0 = 10%:R / 81%:R.
Proof. exact stud_refuted. Qed.
Print Assumptions C179_studentised_refuted.
