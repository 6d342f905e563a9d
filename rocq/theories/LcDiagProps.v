(** C148: diagnostics of a local ridge regression. *)
From Coq Require Import Reals List Lia Lra.
From Verif Require Import XReal Sums DiagModel DiagProofs LcDiagModel LcDiagProofs.
Local Open Scope R_scope.

(** The values, in terms of the traces t0 of S and t1 of S'S, the sum of squared residuals and the data. *)
Theorem C148_values : forall n p x b y t0 t1, let d := lc_diagnostic n p x b y t0 t1 in
  ENP d = 2 * t0 - t1 /\ EDF d = INR n - ENP d /\
  ((exists i j, (i < n)%nat /\ (j < n)%nat /\ y i <> y j) -> EDF d <> 0 ->
   exists r2, xval (R2 d) = Some r2 /\ xval (R2adj d) = Some (1 - (1 - r2) * (INR n - 1) / EDF d)) /\
  (0 < RSSv d -> 0 < EDF d -> let s2 := RSSv d / EDF d in
   xval (AIC d) = Some (INR n * (ln (2 * PI * s2) + 1) + 2 * (ENP d + 1)) /\
   ((0 < n)%nat -> INR n - 2 - ENP d <> 0 ->
    xval (AICc d) = Some (INR n * ln (2 * PI * s2) + INR n * ((INR n + ENP d) / (INR n - 2 - ENP d))))).
Proof. exact lc_values_main. Qed.
Print Assumptions C148_values.
(** Full statement: they are the diagnostics of the other regressions (C50).  So are the residual sum of squares, the effective
    parameters and degrees of freedom, and R2 ... *)
Theorem C148_agree_partial : forall n p x b y t0 t1,
  let d := lc_diagnostic n p x b y t0 t1 in let d' := calc_diagnostic n p x b y t0 t1 in
  RSSv d = RSSv d' /\ ENP d = ENP d' /\ EDF d = EDF d' /\ R2 d = R2 d'.
Proof. exact lc_agree_main. Qed.
Print Assumptions C148_agree_partial.
(** ... but never the adjusted R2, unless the fit is perfect, ... *)
Theorem C148_adjusted_refuted : forall n p x b y t0 t1,
  let d := lc_diagnostic n p x b y t0 t1 in let d' := calc_diagnostic n p x b y t0 t1 in
  (exists i j, (i < n)%nat /\ (j < n)%nat /\ y i <> y j) -> 0 < RSSv d -> EDF d <> 0 -> EDF d <> 1 ->
  exists v v', xval (R2adj d) = Some v /\ xval (R2adj d') = Some v' /\ v <> v'.
Proof. exact lc_adjusted_main. Qed.
Print Assumptions C148_adjusted_refuted.
(** ... and not the AIC. *)
Theorem C148_aic_refuted : forall n p x b y t0 t1,
  let d := lc_diagnostic n p x b y t0 t1 in let d' := calc_diagnostic n p x b y t0 t1 in
  (0 < n)%nat -> 0 < RSSv d -> 0 < EDF d -> exists v v', xval (AIC d) = Some v /\ xval (AIC d') = Some v' /\
  v - v' = INR n * ln (INR n / EDF d) + 2 * (ENP d + 1) - t0.
Proof. exact lc_aic_main. Qed.
Print Assumptions C148_aic_refuted.
Example C148_case : let d := lc_diagnostic 3 1 (fun _ _ => 1) (fun _ _ => 1) INR 1 (1 / 2) in
  RSSv d = 2 /\ EDF d = 3 / 2 /\ (exists i j, (i < 3)%nat /\ (j < 3)%nat /\ INR i <> INR j) /\ INR 3 - 2 - ENP d <> 0.
Proof.
  cbn [lc_diagnostic lc_diag_from RSSv EDF ENP]; unfold rss_of, fitted; simpl.
  split; [lra|]; split; [lra|]; split; [|lra]. exists 0%nat, 1%nat; repeat split; try lia; simpl; lra.
Qed.
(** The traces grow with every fit of the same object (C80: t0, t1 are added again and again), so that from some fit on AIC and
    AICc are not numbers, however good the model. *)
Theorem C148_refit_refuted : forall n p x b y t0 t1,
  (exists i, (i < n)%nat /\ y i <> bigsum p (fun k => x i k * b i k)) -> 0 < 2 * t0 - t1 ->
  exists k0, forall k, (k0 <= k)%nat -> let d := lc_diagnostic n p x b y (INR k * t0) (INR k * t1) in AIC d = XN /\ AICc d = XN.
Proof. exact lc_refit_main. Qed.
Print Assumptions C148_refit_refuted.
Example C148_refit_case : (exists i, (i < 3)%nat /\ INR i <> bigsum 1 (fun k => 1 * 1)) /\ 0 < 2 * 1 - 1 / 2.
Proof. split; [|lra]. exists 0%nat. split; [lia|]. simpl. lra. Qed.
