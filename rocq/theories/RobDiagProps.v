(** Theorems on the diagnostics of robust regression (C181).  Vocabulary: GwrSpec.v. *)
From mathcomp Require Import all_ssreflect all_algebra.
From Verif Require Import Outcome GwrModel GwrSpec RobFitModel RobDiagModel RobDiag.
Set Implicit Arguments. Unset Strict Implicit. Unset Printing Implicit Defensive.
Import GRing.Theory Num.Theory.
Local Open Scope ring_scope.

(** C181, trace: with spatial weights in [0, 1] that are 1 at the location itself and any non-negative robust weights, the trace of
    the hat matrix is at least the number of coefficients, ENP is at most the number of observations and EDF is not negative. *)
Theorem C181_trace : forall (F : realFieldType) n p (inv : 'M[F]_p -> option 'M[F]_p), inverse_contract inv ->
  forall (x : 'M[F]_(n, p)) (w : 'I_n -> 'cV[F]_n) (mask : 'cV[F]_n),
  (forall i j, 0 <= w i j ord0 <= 1) -> (forall i, w i i ord0 = 1) -> (forall j, 0 <= mask j ord0) ->
  forall y s, (0 < n)%N -> robust_fit inv x y w mask (fun _ => false) = Ok (s, false) ->
  [/\ p%:R <= shat0 s, rp_enp (robust_diagnostic x y s) <= n%:R & 0 <= rp_edf (robust_diagnostic x y s)].
Proof. exact mask_bounds. Qed.
Print Assumptions C181_trace.

(** C181, mean: with an intercept alone and equal spatial weights, ENP is 2 - n / K and EDF n - 2 + n / K when K of the n observations
    are kept; the coefficient is the mean of those kept, the residual variance is taken around it over all observations, and the
    squared standard error is that variance over K. *)
Theorem C181_mean : forall (F : realFieldType) n (y mask : 'cV[F]_n),
  (forall j, mask j ord0 = 0 \/ mask j ord0 = 1) ->
  let K := \sum_j mask j ord0 in 0 < K ->
  exists s, [/\ robust_fit (@exact_inv F 1) (const_mx 1) y (fun _ => const_mx 1) mask (fun _ => false) = Ok (s, false),
    shat0 s = 1, rp_enp (robust_diagnostic (const_mx 1) y s) = 2%:R - n%:R / K
    & rp_edf (robust_diagnostic (const_mx 1) y s) = n%:R - 2%:R + n%:R / K] /\
    let mean := (\sum_j mask j ord0 * y j ord0) / K in
    let sigma2 := (\sum_j (y j ord0 - mean) ^+ 2) / (n%:R - 2%:R + n%:R / K) in
    [/\ forall i, betas s ord0 i = mean, rp_sigma2 (robust_diagnostic (const_mx 1) y s) = sigma2
      & forall i, rp_se2 (robust_diagnostic (const_mx 1) y s) ord0 i = sigma2 / K].
Proof. exact enp_main. Qed.
Print Assumptions C181_mean.

(** C181, refuted: "ENP is at least the number of coefficients".  One observation kept of three: ENP is -1. *)
Theorem C181_enp_refuted : forall y : 'cV[rat]_3, exists s,
  robust_fit (@exact_inv _ 1) (const_mx 1) y (fun _ => const_mx 1) (\col_i (if (i < 1)%N then 1 else 0)) (fun _ => false) = Ok (s, false) /\
  rp_enp (robust_diagnostic (const_mx 1) y s) = -1.
Proof. exact negative_main. Qed.
Print Assumptions C181_enp_refuted.

(** C181, discarded: the response of a discarded observation changes neither the coefficients nor ENP nor EDF, but its squared
    residual stays in the residual sum of squares, and the squared standard errors are proportional to that sum. *)
Theorem C181_discarded : forall (F : realFieldType) n p (inv : 'M[F]_p -> option 'M[F]_p)
    (x : 'M[F]_(n, p)) (y y' : 'cV[F]_n) w (mask : 'cV[F]_n) (k : 'I_n) s s',
  mask k ord0 = 0 -> (forall j, j != k -> y' j ord0 = y j ord0) ->
  robust_fit inv x y w mask (fun _ => false) = Ok (s, false) ->
  robust_fit inv x y' w mask (fun _ => false) = Ok (s', false) ->
  let fitted_k := \sum_a x k a * betas s a k in
  [/\ betas s' = betas s,
      rp_enp (robust_diagnostic x y' s') = rp_enp (robust_diagnostic x y s),
      rp_edf (robust_diagnostic x y' s') = rp_edf (robust_diagnostic x y s),
      rp_rss (robust_diagnostic x y' s') - rp_rss (robust_diagnostic x y s) = (y' k ord0 - fitted_k) ^+ 2 - (y k ord0 - fitted_k) ^+ 2
    & forall a i, rp_se2 (robust_diagnostic x y' s') a i * rp_rss (robust_diagnostic x y s) =
                  rp_se2 (robust_diagnostic x y s) a i * rp_rss (robust_diagnostic x y' s')].
Proof. exact discarded_main. Qed.
Print Assumptions C181_discarded.

(** C181, refuted: "a discarded observation has a bounded influence on what is reported".  Whatever the bound, a response for that
    observation leaves the coefficients as they are and puts the residual variance above the bound. *)
Theorem C181_influence_refuted : forall (F : realFieldType) n p (inv : 'M[F]_p -> option 'M[F]_p)
    (x : 'M[F]_(n, p)) (y : 'cV[F]_n) w (mask : 'cV[F]_n) (k : 'I_n) s (bound : F),
  mask k ord0 = 0 ->
  robust_fit inv x y w mask (fun _ => false) = Ok (s, false) ->
  0 < rp_edf (robust_diagnostic x y s) ->
  exists (y' : 'cV[F]_n) s', [/\ forall j, j != k -> y' j ord0 = y j ord0,
    robust_fit inv x y' w mask (fun _ => false) = Ok (s', false),
    betas s' = betas s & bound < rp_sigma2 (robust_diagnostic x y' s')].
Proof. exact unbounded_main. Qed.
Print Assumptions C181_influence_refuted.

(** The hypotheses are met: three observations of which two are kept, whatever the response. *)
Example C181_case : forall y : 'cV[rat]_3, exists s,
  [/\ robust_fit (@exact_inv _ 1) (const_mx 1) y (fun _ => const_mx 1) (keep 2) (fun _ => false) = Ok (s, false),
      shat0 s = 1 & 0 < rp_edf (robust_diagnostic (const_mx 1) y s)].
Proof. exact keep2_case. Qed.
