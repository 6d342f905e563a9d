(** Property theorems C128-C130: criterion, diagnostics and setters of generalised GWR.
    Vocabulary: GlmSpec.v.  The log-likelihood and the tolerance are arbitrary. *)
From Coq Require Import Reals Bool List Arith ZArith.
From Verif Require Import Outcome XReal Sums GlmModel GlmSpec GlmCritModel GlmCritProofs.
Import ListNotations.
Local Open Scope R_scope.

(** C128: the criterion is the sum of the squared differences between the observations and the
    means predicted at them, where the coefficients used at point i minimise the weighted sum of
    squares over the other points: weights of the bandwidth times the working weights ws, response
    zs, both as left by the scoring loop. *)
Theorem C128_criterion_partial : forall fam n p x y solve llik tol wt, solves_wls n p x solve ->
  (forall i j, (i < n)%nat -> (j < n)%nat -> 0 <= wt i j) -> valid_response fam n y ->
  forall maxiter adj0 c, (0 < maxiter)%nat -> cv_criterion fam n p x y solve llik tol wt maxiter adj0 = Ok c ->
  exists r ws zs (bs : nat -> nat -> R) v, irls_run fam y (regress_with n p x solve (loo wt)) llik tol maxiter adj0 = Ok r /\
    numbers n (wt2 r) ws /\ (forall j, (j < n)%nat -> 0 < ws j) /\ numbers n (yadj r) zs /\
    c = Some v /\ xval v = Some (bigsum n (fun i => (y i - mean_of fam (bigsum p (fun a => x i a * bs i a))) ^ 2)) /\
    forall i b, (i < n)%nat ->
      bigsum n (fun j => (if Nat.eqb j i then 0 else wt i j * ws j) * (zs j - bigsum p (fun a => x j a * bs i a)) ^ 2) <=
      bigsum n (fun j => (if Nat.eqb j i then 0 else wt i j * ws j) * (zs j - bigsum p (fun a => x j a * b a)) ^ 2).
Proof. exact cv_main. Qed.
Print Assumptions C128_criterion_partial.
(** It is not a leave-one-out prediction: the working weights and responses of the other points
    come from regressions that include observation i, so the mean predicted at a point depends on
    the observation at that point. *)
Theorem C128_leave_one_out_refuted : exists n p x (solve : xvec -> xvec -> outcome xvec) llik tol wt maxiter y y' m m' v v',
  solves_wls n p x solve /\ (forall i j, (i < n)%nat -> (j < n)%nat -> 0 < wt i j /\ wt i j = wt j i) /\
  valid_response Poisson n y /\ valid_response Poisson n y' /\ (forall i, i <> 0%nat -> y i = y' i) /\
  cv_means Poisson n p x y solve llik tol wt maxiter (fun _ => XF 0) = Ok m /\
  cv_means Poisson n p x y' solve llik tol wt maxiter (fun _ => XF 0) = Ok m' /\
  xval (m 0%nat) = Some v /\ xval (m' 0%nat) = Some v' /\ v <> v'.
Proof. exact loo_witness. Qed.
Print Assumptions C128_leave_one_out_refuted.
Example C128_case : solves_wls 3 1 (fun _ _ => 1) mean3 /\ valid_response Poisson 3 (y3 1) /\ exists c,
  cv_criterion Poisson 3 1 (fun _ _ => 1) (y3 1) mean3 (fun _ => XF (-1)) (1 / 100000) wt3 1 (fun _ => XF 0) = Ok c.
Proof. exact cv_case. Qed.

(** C129: AIC, AICc, deviance and pseudo R2 of the local model; pseudo R2 is at most one, and one
    only for a perfect fit. *)
Theorem C129_local_diagnostics : forall n trS dev nulldev aic aicc d r2, nulldev <> 0 -> INR n - trS - 1 <> 0 ->
  ggwr_diagnostic n trS dev nulldev = (aic, aicc, d, r2) ->
  xval aic = Some (dev + 2 * trS) /\ xval aicc = Some (dev + 2 * trS + 2 * trS * (trS + 1) / (INR n - trS - 1)) /\
  d = dev /\ xval r2 = Some (1 - dev / nulldev) /\
  (0 <= dev -> 0 < nulldev -> 1 - dev / nulldev <= 1 /\ (1 - dev / nulldev = 1 <-> dev = 0)).
Proof. exact local_diag_main. Qed.
Print Assumptions C129_local_diagnostics.
(** AICc of the global model divides unsigned integers.  The correction is rounded down to an
    integer, and exact when the division is. *)
Theorem C129_global_diagnostics_partial : forall n p nulldev dev, word n -> (2 * Z.of_nat p * (Z.of_nat p + 1) < 2 ^ 64)%Z ->
  nulldev <> 0 -> (p + 1 < n)%nat ->
  exists aic aicc r2, glm_diagnostic n p nulldev dev = Ok (aic, aicc, nulldev, dev, r2) /\
    aic = dev + 2 * INR p /\ xval r2 = Some (1 - dev / nulldev) /\
    aicc <= aic + 2 * INR p * (INR p + 1) / (INR n - INR p - 1) < aicc + 1 /\
    (exists k : Z, aicc = aic + IZR k) /\
    (Nat.divide (n - p - 1) (2 * p * (p + 1)) -> aicc = aic + 2 * INR p * (INR p + 1) / (INR n - INR p - 1)).
Proof. exact glm_diag_main. Qed.
Print Assumptions C129_global_diagnostics_partial.
(** Ten points and two variables: AIC + 1 instead of AIC + 12/7. *)
Theorem C129_global_aicc_refuted : exists n p nulldev dev aic aicc r2, (p + 1 < n)%nat /\
  glm_diagnostic n p nulldev dev = Ok (aic, aicc, nulldev, dev, r2) /\
  aicc <> aic + 2 * INR p * (INR p + 1) / (INR n - INR p - 1).
Proof. exact (proj1 glm_diag_refuted). Qed.
Print Assumptions C129_global_aicc_refuted.
(** With one observation more than variables the integer division is by zero. *)
Theorem C129_division_refuted : forall n p nulldev dev, n = (p + 1)%nat -> glm_diagnostic n p nulldev dev = UB.
Proof. exact (proj2 glm_diag_refuted). Qed.
Print Assumptions C129_division_refuted.
Example C129_case : word 10 /\ (2 * Z.of_nat 2 * (Z.of_nat 2 + 1) < 2 ^ 64)%Z /\ (2 + 1 < 10)%nat /\
  exists aic aicc d r2, ggwr_diagnostic 10 3 5 8 = (aic, aicc, d, r2).
Proof. exact diag_case. Qed.

(** C130: after any calls of the setters hasRegressionData() is false, *)
Theorem C130_has_regression_data_refuted : forall ops, mHas (reg_run ops) = false.
Proof. exact regdata_main. Qed.
Print Assumptions C130_has_regression_data_refuted.
(** and setting the flag replaces the regression data by a matrix with one entry. *)
Theorem C130_data_kept_refuted : forall d v, mData (reg_run [SetData d; SetHas v]) = [[if v then 1 else 0]].
Proof. exact regdata_lost. Qed.
Print Assumptions C130_data_kept_refuted.
(** Without the flag setter the data last set are returned. *)
Theorem C130_data_partial : forall ops d, mData (reg_run (ops ++ [SetData d])) = d.
Proof. exact regdata_last. Qed.
Print Assumptions C130_data_partial.
Example C130_case : mData (reg_run [SetData [[1]]; SetHas true; SetData [[2; 3]]]) = [[2; 3]].
Proof. reflexivity. Qed.
