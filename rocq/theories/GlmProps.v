(** Property theorems C63-C66, C90, C91: families, scoring loops and criterion of generalised
    GWR.  Vocabulary: GlmSpec.v.  Vectors of n entries are functions of the index. *)
From Coq Require Import Reals List Arith Lia Lra.
From Verif Require Import Outcome XReal Sums OmpModel OmpSpec OmpProofs GlmModel GlmSpec GlmProofs GlmProofs2 GlmCases GlmValues.
Import ListNotations.
Local Open Scope R_scope.

(** C63, logit: the inverse link undoes the link on (0,1). *)
Theorem C63_binomial_roundtrip : forall n mu m, numbers n mu m -> (forall i, (i < n)%nat -> 0 < m i < 1) ->
  numbers n (binomial_linkinv (binomial_linkfun mu)) m.
Proof. exact binomial_roundtrip. Qed.
Print Assumptions C63_binomial_roundtrip.
(** C63, log: ... for means of at least 2.220446e-16.
    Missing from the full statement: smaller positive means, which the inverse link raises
    to that bound (refuted below). *)
Theorem C63_poisson_roundtrip_partial : forall n mu m, numbers n mu m ->
  (forall i, (i < n)%nat -> 2220446 / 10 ^ 22 <= m i) ->
  numbers n (poisson_linkinv n (poisson_linkfun mu)) m.
Proof. exact C63_poisson_main. Qed.
Print Assumptions C63_poisson_roundtrip_partial.
Theorem C63_poisson_roundtrip_refuted : exists mu m, 0 < m /\ xval (mu 0%nat) = Some m /\
  xval (poisson_linkinv 1 (poisson_linkfun mu) 0%nat) <> Some m.
Proof. exact C63_poisson_witness. Qed.
Print Assumptions C63_poisson_roundtrip_refuted.
(** Inverse links return finite positive means, and probabilities strictly between 0 and 1. *)
Theorem C63_valid_means : forall fam n eta, all_numbers n (fun _ => True) eta ->
  all_numbers n (valid_mean fam) (linkinv fam n eta).
Proof. exact C63_valid_main. Qed.
Print Assumptions C63_valid_means.
(** muEta is the derivative of the inverse link; for Poisson only where exp e exceeds the
    bound.  Below it the inverse link is constant and muEta is not its derivative. *)
Theorem C63_binomial_derivative : exists f g : R -> R,
  (forall n eta es, numbers n eta es -> numbers n (binomial_linkinv eta) (fun i => f (es i)) /\
                                        numbers n (binomial_muEta eta) (fun i => g (es i))) /\
  forall e, derivable_pt_lim f e (g e).
Proof. exact C63_binomial_derivative_main. Qed.
Print Assumptions C63_binomial_derivative.
Theorem C63_poisson_derivative_partial : exists f g : R -> R,
  (forall n eta es, numbers n eta es -> numbers n (poisson_linkinv n eta) (fun i => f (es i)) /\
                                        numbers n (poisson_muEta n eta) (fun i => g (es i))) /\
  (forall e, 2220446 / 10 ^ 22 < exp e -> derivable_pt_lim f e (g e)) /\
  (forall e, exp e < 2220446 / 10 ^ 22 -> derivable_pt_lim f e 0 /\ 0 < g e).
Proof. exact C63_derivative_main. Qed.
Print Assumptions C63_poisson_derivative_partial.
Example C63_case : (numbers 3 ex_means (fun i => INR i + 1 / 2) /\
  forall i, (i < 3)%nat -> 2220446 / 10 ^ 22 <= INR i + 1 / 2) /\
  numbers 2 (fun _ => XF (1 / 4)) (fun _ => 1 / 4).
Proof. split; [exact ex_means_ok|]. intros i L; reflexivity. Qed.

(** C64: deviance residuals are non-negative numbers, zero exactly at the observation. *)
Theorem C64_poisson : forall n y mu w m ws, numbers n mu m -> numbers n w ws ->
  (forall i, (i < n)%nat -> 0 <= y i) -> (forall i, (i < n)%nat -> 0 < m i) -> (forall i, (i < n)%nat -> 0 < ws i) ->
  forall i, (i < n)%nat -> exists d, xval (poisson_devResids n y mu w i) = Some d /\ 0 <= d /\ (d = 0 <-> m i = y i).
Proof. exact C64_poisson_main. Qed.
Print Assumptions C64_poisson.
Theorem C64_binomial : forall n y mu w m ws, numbers n mu m -> numbers n w ws ->
  (forall i, (i < n)%nat -> 0 <= y i <= 1) -> (forall i, (i < n)%nat -> 0 < m i < 1) -> (forall i, (i < n)%nat -> 0 < ws i) ->
  forall i, (i < n)%nat -> exists d, xval (binomial_devResids y mu w i) = Some d /\ 0 <= d /\ (d = 0 <-> m i = y i).
Proof. exact C64_binomial_main. Qed.
Print Assumptions C64_binomial.
(** The local deviance of the Poisson model is the sum of the unit-weight residuals. *)
Theorem C64_local_poisson : forall n y mu m, numbers n mu m -> (forall i, (i < n)%nat -> 0 <= y i) ->
  (forall i, (i < n)%nat -> 0 < m i) ->
  exists d, xval (gw_dev n y mu) = Some d /\ xval (xsum n (poisson_devResids n y mu (fun _ => XF 1))) = Some d /\
    0 <= d /\ (d = 0 <-> forall i, (i < n)%nat -> m i = y i).
Proof. exact C64_local_main. Qed.
Print Assumptions C64_local_poisson.
(** That of the binomial model is, for responses 0 and 1.
    Missing from the full statement: responses strictly between, for which the formula
    log(1/(y - 1 + yhat)^2) is not the deviance (refuted below: infinite at a perfect fit). *)
Theorem C64_local_binomial_partial : forall n y mu m, numbers n mu m -> (forall i, (i < n)%nat -> y i = 0 \/ y i = 1) ->
  (forall i, (i < n)%nat -> 0 < m i < 1) ->
  exists d, xval (gw_dev_binomial n y mu) = Some d /\ xval (xsum n (binomial_devResids y mu (fun _ => XF 1))) = Some d /\ 0 <= d.
Proof. exact C64_local_binomial_main. Qed.
Print Assumptions C64_local_binomial_partial.
Theorem C64_local_binomial_refuted : exists y mu : nat -> R, 0 <= y 0%nat <= 1 /\ 0 < mu 0%nat < 1 /\ mu 0%nat = y 0%nat /\
  gw_dev_binomial 1 y (fun i => XF (mu i)) = XI false.
Proof. exact C64_witness. Qed.
Print Assumptions C64_local_binomial_refuted.
(** Their values: prior weight times the unit deviance of the family. *)
Theorem C64_values : forall n y mu w m ws, numbers n mu m -> numbers n w ws ->
  ((forall i, (i < n)%nat -> 0 <= y i) -> (forall i, (i < n)%nat -> 0 < m i) ->
     numbers n (poisson_devResids n y mu w) (fun i => ws i * unit_deviance Poisson (y i) (m i))) /\
  ((forall i, (i < n)%nat -> 0 <= y i <= 1) -> (forall i, (i < n)%nat -> 0 < m i < 1) ->
     numbers n (binomial_devResids y mu w) (fun i => ws i * unit_deviance Binomial (y i) (m i))).
Proof. exact C64_weighted_main. Qed.
Print Assumptions C64_values.
Theorem C64_local_values : forall n y mu m, numbers n mu m ->
  ((forall i, (i < n)%nat -> 0 <= y i) -> (forall i, (i < n)%nat -> 0 < m i) ->
     xval (gw_dev n y mu) = Some (bigsum n (fun i => unit_deviance Poisson (y i) (m i)))) /\
  ((forall i, (i < n)%nat -> y i = 0 \/ y i = 1) -> (forall i, (i < n)%nat -> 0 < m i < 1) ->
     xval (gw_dev_binomial n y mu) = Some (bigsum n (fun i => unit_deviance Binomial (y i) (m i)))).
Proof. exact C64_total_main. Qed.
Print Assumptions C64_local_values.
Example C64_case : numbers 3 ex_means (fun i => INR i + 1 / 2) /\ (forall i, (i < 3)%nat -> 0 <= INR i) /\
  (forall i, (i < 3)%nat -> 0 < INR i + 1 / 2).
Proof. split; [apply ex_means_ok|]. split; intros i _; assert (P := pos_INR i); lra. Qed.

(** C65: at most mMaxiter rounds of regressions; every one is given finite positive working
    weights and a finite adjusted response; the returned means are valid.  For any
    likelihood and any tolerance, if the regressions return numbers. *)
Theorem C65_scoring : forall fam n y regress llik tol, keeps_numbers n regress -> valid_response fam n y ->
  forall maxiter adj0 r, irls_run fam y regress llik tol maxiter adj0 = Ok r ->
  (length (calls r) <= maxiter)%nat /\ all_numbers n (valid_mean fam) (mean r) /\
  Forall (fun c => all_numbers n (Rlt 0) (fst c) /\ all_numbers n (fun _ => True) (snd c)) (calls r).
Proof. exact C65_main. Qed.
Print Assumptions C65_scoring.
(** ... and it returns unless a regression fails. *)
Theorem C65_returns : forall fam n y regress llik tol, keeps_numbers n regress -> valid_response fam n y ->
  succeeds n regress -> forall maxiter adj0, exists r, irls_run fam y regress llik tol maxiter adj0 = Ok r.
Proof. exact C65_total_main. Qed.
Print Assumptions C65_returns.
(** ... and every round is a step of Fisher scoring: ms and nus are the means and linear
    predictors before each round; the loop stops at the first small relative change of the
    log-likelihood, or after mMaxiter rounds. *)
Theorem C65_fisher_scoring : forall fam n y regress llik tol, keeps_numbers n regress -> valid_response fam n y ->
  forall maxiter adj0 r, irls_run fam y regress llik tol maxiter adj0 = Ok r ->
  exists (mv : nat -> nat -> xd) (ms nus : nat -> nat -> R),
    (forall k, (k <= length (calls r))%nat -> numbers n (mv k) (ms k)) /\
    (forall i, (i < n)%nat -> match fam with
       | Poisson => ms 0%nat i = y i + 1 / 10 /\ nus 0%nat i = ln (y i + 1 / 10)
       | Binomial => ms 0%nat i = 1 / 2 /\ nus 0%nat i = 0 end) /\
    (forall k w z, nth_error (calls r) k = Some (w, z) ->
       numbers n w (fun i => match k with O => 1 | S _ => variance_of fam (ms k i) end) /\
       numbers n z (fun i => nus k i + (y i - ms k i) / variance_of fam (ms k i)) /\
       (exists nu, regress w z = Ok nu /\ numbers n nu (nus (S k))) /\
       forall i, (i < n)%nat -> ms (S k) i = mean_of fam (nus (S k) i)) /\
    mean r = mv (length (calls r)) /\
    (let ll k := match k with O => XF 0 | S _ => llik (mv k) end in
     let small k := xltb (xabs (xdiv (xsub (ll k) (ll (S k))) (ll (S k)))) (XF tol) in
     (forall k, (S k < length (calls r))%nat -> small k = false) /\
     (converged r = true -> small (length (calls r) - 1)%nat = true) /\
     (converged r = false -> length (calls r) = maxiter)).
Proof. exact C65_fisher_main. Qed.
Print Assumptions C65_fisher_scoring.
Example C65_case : (keeps_numbers 2 reg2 /\ succeeds 2 reg2) /\ valid_response Poisson 2 (fun _ => 9 / 10) /\
  exists r, irls_run Poisson (fun _ => 9 / 10) reg2 (fun _ => XF (-1)) (1 / 100000) 5 (fun _ => XF 0) = Ok r.
Proof. split; [exact reg2_ok|]. split; [intros i L; simpl; lra|exact ex_run]. Qed.

(** C66: the parallel AICc equals the serial one with one thread.
    Missing from the full statement: more threads, where only the part of the trace summed
    by thread 0 is used (next theorem), so the values differ (refuted). *)
Theorem C66_one_thread_partial : forall n llik diag sched, (forall i, (i < n)%nat -> diag i <> None) -> schedule 1 0 n sched ->
  exists v, aic_serial n llik diag = Ok v /\ aic_omp n llik diag 1 sched = Value v.
Proof. exact C66_main. Qed.
Print Assumptions C66_one_thread_partial.
Theorem C66_what_is_computed : forall n llik diag s threads sched, (forall i, (i < n)%nat -> diag i = Some (s i)) ->
  schedule threads 0 n sched ->
  aic_serial n llik diag = Ok (ggwr_aicc n llik (bigsum n s)) /\
  aic_omp n llik diag threads sched = Value (ggwr_aicc n llik (lsum (map s (finished_by 0 sched)))).
Proof. exact C66_values_main. Qed.
Print Assumptions C66_what_is_computed.
Theorem C66_formula : forall n llik trs, INR n - trs - 1 <> 0 ->
  xval (ggwr_aicc n llik trs) = Some (- 2 * llik + 2 * trs + 2 * trs * (trs + 1) / (INR n - trs - 1)).
Proof. exact C66_formula_main. Qed.
Print Assumptions C66_formula.
Theorem C66_threads_refuted : exists n llik diag sched v v',
  schedule 2 0 n sched /\ aic_serial n llik diag = Ok v /\ aic_omp n llik diag 2 sched = Value v' /\ xval v <> xval v'.
Proof. exact C66_witness. Qed.
Print Assumptions C66_threads_refuted.
(** Failures differ too: an exception against the end of the program. *)
Theorem C66_failure_refuted : forall n llik diag threads sched, (exists i, (i < n)%nat /\ diag i = None) ->
  schedule threads 0 n sched ->
  aic_serial n llik diag = Throw /\ aic_omp n llik diag threads sched = Died.
Proof. exact C66_failure_main. Qed.
Print Assumptions C66_failure_refuted.
Example C66_case : schedule 1 0 5 (sequential (seq 0 5)) /\ schedule 2 0 2 overlap.
Proof. split; [exact (sequential_schedule 0 5 1 (le_n 1))|exact overlap_schedule]. Qed.

(** C90: after convergence the weights and adjusted response kept for the final regressions
    are those of the last round, so the final regressions reproduce the returned means.
    Missing from the full statement: the iteration limit being reached (refuted below: the
    weights are then newer than the adjusted response). *)
Theorem C90_final_regression_partial : forall fam n y regress llik tol, keeps_numbers n regress -> valid_response fam n y ->
  forall maxiter adj0 r, irls_run fam y regress llik tol maxiter adj0 = Ok r -> converged r = true ->
  exists nu, regress (wt2 r) (yadj r) = Ok nu /\ forall i, mean r i = inverse_link fam (nu i).
Proof. exact C90_main. Qed.
Print Assumptions C90_final_regression_partial.
Theorem C90_limit_refuted : exists n y regress llik tol maxiter adj0 r nu,
  valid_response Poisson n y /\ keeps_numbers n regress /\ succeeds n regress /\ (0 < n)%nat /\ (0 < maxiter)%nat /\
  irls_run Poisson y regress llik tol maxiter adj0 = Ok r /\ regress (wt2 r) (yadj r) = Ok nu /\
  xval (mean r 0%nat) <> xval (inverse_link Poisson (nu 0%nat)).
Proof. exact C90_witness. Qed.
Print Assumptions C90_limit_refuted.
Example C90_case : exists r, irls_run Poisson (fun _ => 9 / 10) reg2 (fun _ => XF (-1)) (1 / 100000) 2 (fun _ => XF 0) = Ok r /\
  converged r = true.
Proof. exact ex_converges. Qed.

(** C91: the global model makes at most mMaxit regressions, never takes the path of an
    infinite deviance, and both deviances it reports are defined, finite and non-negative. *)
Theorem C91_global_model : forall fam n y wls, keeps_numbers n (fun w z => wls z w) -> valid_response fam n y ->
  forall maxit epsilon undef s, (0 < n)%nat -> (0 < maxit)%nat ->
  glm_fit fam n y wls maxit epsilon undef = Ok s ->
  (rounds s <= maxit)%nat /\ complete s = true /\ (exists d, xval (gdev s) = Some d /\ 0 <= d) /\
  exists d0, xval (null_dev fam n y) = Some d0 /\ 0 <= d0.
Proof. exact C91_main. Qed.
Print Assumptions C91_global_model.
Theorem C91_reported : forall fam n y wls maxit epsilon undef r,
  keeps_numbers n (fun w z => wls z w) -> valid_response fam n y -> (0 < n)%nat -> (0 < maxit)%nat ->
  cal_glm fam n y wls maxit epsilon undef = Ok r ->
  exists nd s, fst r = Some nd /\ xval nd = Some (bigsum n (fun i => unit_deviance fam (y i) (bigsum n y / INR n))) /\
    glm_fit fam n y wls maxit epsilon undef = Ok s /\ snd r = gdev s /\
    (exists d0, xval nd = Some d0 /\ 0 <= d0) /\ exists d, xval (snd r) = Some d /\ 0 <= d.
Proof. exact C91_cal_main. Qed.
Print Assumptions C91_reported.
Theorem C91_returns : forall fam n y wls, keeps_numbers n (fun w z => wls z w) -> valid_response fam n y ->
  succeeds n (fun w z => wls z w) -> forall maxit epsilon undef, exists s,
  glm_fit fam n y wls maxit epsilon undef = Ok s.
Proof. exact C91_total_main. Qed.
Print Assumptions C91_returns.
(** Every regression is a step of Fisher scoring on the linear predictors ets, the deviance
    reported is that of the means after the last one, and the loop stops at the first small
    relative change of the deviance, or after mMaxit regressions. *)
Theorem C91_fisher_scoring : forall fam n y wls, keeps_numbers n (fun w z => wls z w) -> valid_response fam n y ->
  forall maxit epsilon undef s, (0 < maxit)%nat -> glm_fit fam n y wls maxit epsilon undef = Ok s ->
  exists ets : nat -> nat -> R,
    (forall i, (i < n)%nat -> ets 0%nat i = match fam with
       | Poisson => ln (y i + 1 / 10) | Binomial => ln ((y i + 1 / 2) / 2 / (1 - (y i + 1 / 2) / 2)) end) /\
    let ms k i := bounded_mean fam (ets k i) in
    let sl k i := match fam with Poisson => ms k i | Binomial => exp (ets k i) / (1 + exp (ets k i)) ^ 2 end in
    let D k := bigsum n (fun i => unit_deviance fam (y i) (ms k i)) in
    let small k := Rabs (D (S k) - D k) / (1 / 10 + Rabs (D (S k))) < epsilon in
    (0 < rounds s)%nat /\
    (forall k, (k < rounds s)%nat -> exists z w v,
       numbers n z (fun i => ets k i + (y i - ms k i) / sl k i) /\
       numbers n w (fun i => sqrt (sl k i ^ 2 / variance_of fam (ms k i))) /\
       wls z w = Ok v /\ numbers n v (ets (S k))) /\
    xval (gdev s) = Some (D (rounds s)) /\
    (forall k, (S k < rounds s)%nat -> ~ small k) /\
    ((rounds s < maxit)%nat -> exists k, rounds s = S k /\ small k).
Proof. exact C91_fisher_main. Qed.
Print Assumptions C91_fisher_scoring.
(** The null deviance is the deviance at the mean response. *)
Theorem C91_null_deviance : forall fam n y, valid_response fam n y -> (0 < n)%nat ->
  xval (null_dev fam n y) = Some (bigsum n (fun i => unit_deviance fam (y i) (bigsum n y / INR n))).
Proof. exact C91_null_main. Qed.
Print Assumptions C91_null_deviance.
Example C91_case : (keeps_numbers 2 reg2 /\ succeeds 2 reg2) /\ valid_response Poisson 2 (fun i => INR i) /\
  exists s, glm_fit Poisson 2 (fun i => INR i) (fun z w => reg2 w z) 25 (1 / 10 ^ 6) XN = Ok s.
Proof. split; [exact reg2_ok|]. split; [intros i L; simpl; apply pos_INR|exact ex_glm]. Qed.
