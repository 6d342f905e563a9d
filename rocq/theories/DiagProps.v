(** Property theorems C50, C88: regression diagnostics.
    [bigsum m f] is f 0 + ... + f (m-1). *)
From Coq Require Import Reals List.
From Verif Require Import XReal Sums DiagModel DiagProofs.
Local Open Scope R_scope.

(** C50: the residual sum of squares is non-negative, and zero exactly for a perfect fit;
    the effective parameters and degrees of freedom add up to n. *)
Theorem C50_rss_enp_edf : forall n p x b y s0 s1, let d := calc_diagnostic n p x b y s0 s1 in
  0 <= RSSv d /\
  (RSSv d = 0 <-> forall i, (i < n)%nat -> y i = bigsum p (fun k => x i k * b i k)) /\
  ENP d + EDF d = INR n.
Proof. exact C50_main. Qed.
Print Assumptions C50_rss_enp_edf.

(** C50: the values themselves. *)
Theorem C50_values : forall n p x b y s0 s1, let d := calc_diagnostic n p x b y s0 s1 in
  RSSv d = bigsum n (fun i => (y i - bigsum p (fun k => x i k * b i k)) ^ 2) /\
  ENP d = 2 * s0 - s1 /\ EDF d = INR n - (2 * s0 - s1) /\
  ((exists i j, (i < n)%nat /\ (j < n)%nat /\ y i <> y j) ->
   xval (R2 d) = Some (1 - bigsum n (fun i => (y i - bigsum p (fun k => x i k * b i k)) ^ 2)
                           / bigsum n (fun i => (y i - bigsum n y / INR n) ^ 2))).
Proof. exact C50_values_main. Qed.
Print Assumptions C50_values.

(** C50: with a non-constant response R2 is a number at most 1, and 1 exactly for a perfect
    fit; the adjusted R2 is the documented function of it. *)
Theorem C50_r2 : forall n p x b y s0 s1, let d := calc_diagnostic n p x b y s0 s1 in
  (exists i j, (i < n)%nat /\ (j < n)%nat /\ y i <> y j) ->
  exists r2, xval (R2 d) = Some r2 /\ r2 <= 1 /\
    (r2 = 1 <-> forall i, (i < n)%nat -> y i = bigsum p (fun k => x i k * b i k)) /\
    (EDF d <> 1 -> xval (R2adj d) = Some (1 - (1 - r2) * (INR n - 1) / (EDF d - 1))).
Proof. exact C50_r2_main. Qed.
Print Assumptions C50_r2.

(** C50: AIC and AICc in terms of sigma = sqrt(RSS/n) and the trace s0; the value used in
    the bandwidth search is the reported one. *)
Theorem C50_aicc : forall n p x b y s0 s1, let d := calc_diagnostic n p x b y s0 s1 in
  (0 < n)%nat -> 0 < RSSv d ->
  let sigma := sqrt (RSSv d / INR n) in
  xval (AIC d) = Some (2 * INR n * ln sigma + INR n * ln (2 * PI) + INR n + s0) /\
  (INR n - 2 - s0 <> 0 ->
   xval (AICc d) = Some (2 * INR n * ln sigma + INR n * ln (2 * PI)
                         + INR n * ((INR n + s0) / (INR n - 2 - s0)))) /\
  AICc d = base_aicc n p x b y s0.
Proof. exact C50_aicc_main. Qed.
Print Assumptions C50_aicc.
Example C50_case : let d := calc_diagnostic 3 1 (fun _ _ => 1) (fun _ _ => 1) INR 1 1 in
  RSSv d = 2 /\ EDF d = 2 /\ (exists i j, (i < 3)%nat /\ (j < 3)%nat /\ INR i <> INR j) /\ INR 3 - 2 - 2 <> 0.
Proof. exact diag_case. Qed.

(** A perfect fit has AIC and AICc minus infinity. *)
Theorem C50_perfect_fit : forall n p x b y s0 s1, let d := calc_diagnostic n p x b y s0 s1 in
  (0 < n)%nat -> (forall i, (i < n)%nat -> y i = bigsum p (fun k => x i k * b i k)) ->
  AIC d = XI true /\ (INR n - 2 - s0 <> 0 -> AICc d = XI true).
Proof. exact C50_perfect_main. Qed.
Print Assumptions C50_perfect_fit.
Example C50_perfect_case : (0 < 2)%nat /\ forall i, (i < 2)%nat -> INR i = bigsum 1 (fun k => 1 * INR i).
Proof. exact diag_case0. Qed.

(** C88: reported standard errors: their squares are RSS/(n - ENP) times the accumulated
    sums of squares. *)
Theorem C88_standard_errors : forall n p x b y s0 s1 se2, let d := calc_diagnostic n p x b y s0 s1 in
  0 <= se2 -> 0 < EDF d ->
  exists se, xval (beta_se n p x b y s0 s1 se2) = Some se /\ 0 <= se /\
    se * se = RSSv d / (INR n - ENP d) * se2.
Proof. exact C88_main. Qed.
Print Assumptions C88_standard_errors.
