(** Whole runs of GTWR::fit (GtwrFlowModel.v). *)
From Coq Require Import Reals Bool List Arith.
From Verif Require Import Outcome XReal KernelModel GtwrModel GtwrSpec GoldModel GoldSpec GtwrFlowModel GtwrFlowProofs GtwrFlowExample.
Import ListNotations.
Local Open Scope R_scope.

(** C138: the coefficients returned are those of the regression with the bandwidth and the lambda the object
    reports afterwards, and are the ones it keeps; a stop gives a matrix of zeros, one row per observation. *)
Theorem C138_result : forall B (W : gworld B) o v o', gtwr_fit W o = GReturned v o' ->
  match v with
  | GCoefficients b => (exists stopped, gw_final W (g_weight o') (g_lambda o') = Ok (b, stopped) /\ (stopped = true -> g_terminated o' = true)) /\
      g_betas o' = Some b
  | GZeros r c => r = gw_n W /\ c = gw_p W /\ g_terminated o' = true
  end.
Proof. exact C138_result_main. Qed.
Print Assumptions C138_result.
(** C138: what a run leaves as it was, also when it throws. *)
Theorem C138_kept : forall B (W : gworld B) o o', (exists v, gtwr_fit W o = GReturned v o') \/ gtwr_fit W o = GThrew o' ->
  wkernel (g_weight o') = wkernel (g_weight o) /\ wadaptive (g_weight o') = wadaptive (g_weight o) /\
  (g_auto_bw o = false -> g_weight o' = g_weight o) /\ (g_auto_lambda o = false -> g_lambda o' = g_lambda o) /\
  (0 <= g_lambda o <= 1 -> 0 <= g_lambda o' <= 1) /\ (g_terminated o = true -> g_terminated o' = true).
Proof. exact C138_kept_main. Qed.
Print Assumptions C138_kept.
Example C138_case : gtwr_fit tradeW (tradeO 4 (/ 4) None []) =
  GReturned (GCoefficients (1 - golden, / 2)) (tradeO (1 - golden) (/ 2) (Some (1 - golden, / 2))
      [(1 - golden, XF ((/ 4 - / 4) * (1 - golden) * (4 / 10000))); (golden, XF ((/ 4 - / 4) * golden * (4 / 10000)))]).
Proof. exact quarter_run. Qed.

(** C139, the part that holds: the listed criteria are those of their bandwidths with the lambda the run started with, and
    the bandwidth used has the least of them. *)
Theorem C139_bandwidth_partial : forall B (W : gworld B) o b o',
  (forall k w l s r, gw_bfit W k w l = (s, Some (XF r)) -> r <= DBL_MAX) ->
  (forall k k' w l, gw_bfit W k w l = gw_bfit W k' w l) ->
  gtwr_fit W o = GReturned (GCoefficients b) o' -> g_auto_bw o = true -> g_terminated o' = false ->
  (forall x u, In (x, u) (g_blist o') ->
     gw_bfit W 0 (mkWeight (wkernel (g_weight o)) (wadaptive (g_weight o)) x) (g_lambda o) = (false, Some u) /\ gfinite u = true) /\
  exists v, In (wvalue (g_weight o'), v) (g_blist o') /\ forall x u, In (x, u) (g_blist o') -> not_greater v u.
Proof. exact C139_bandwidth_main. Qed.
Print Assumptions C139_bandwidth_partial.
(** C139, the part that holds: when the R squared obtained with the bandwidth used is strictly unimodal in
    lambda, the lambda used is near its maximiser (as in C75). *)
Theorem C139_lambda_partial : forall B (W : gworld B) o b o' (g : R -> R) mx,
  gtwr_fit W o = GReturned (GCoefficients b) o' -> g_auto_lambda o = true -> g_terminated o' = false ->
  0 <= mx <= 1 -> GtwrSpec.unimodal g mx -> (forall k l, gw_lfit W k (g_weight o') l = (false, Some (XF (g l)))) ->
  exists k, (k <= 100)%nat /\ Rabs (g_lambda o' - mx) <= phi ^ k / 2 /\
    (k = 100%nat \/ Rabs (g (g_lambda o' - phi ^ k / 2) - g (g_lambda o' + phi ^ k / 2)) < / 10 ^ 12).
Proof. exact C139_lambda_main. Qed.
Print Assumptions C139_lambda_partial.
(** C139 is false with both automatic: the bandwidth used was the best for the lambda of before; with the
    lambda finally used, another bandwidth of the list is better. *)
Theorem C139_joint_refuted : exists (W : gworld (R * R)) o b o' x u v,
  (forall k w l, exists r, gw_bfit W k w l = (false, Some (XF r)) /\ gw_bfit W k w l = gw_bfit W 0 w l) /\
  gtwr_fit W o = GReturned (GCoefficients b) o' /\ g_auto_bw o = true /\ g_auto_lambda o = true /\ g_terminated o' = false /\
  In x (map fst (g_blist o')) /\
  gw_bfit W 0 (mkWeight (wkernel (g_weight o')) (wadaptive (g_weight o')) x) (g_lambda o') = (false, Some (XF u)) /\
  gw_bfit W 0 (g_weight o') (g_lambda o') = (false, Some (XF v)) /\ u < v.
Proof. exact joint_refuted. Qed.
Print Assumptions C139_joint_refuted.

(** C140, the part that holds: with at most one of the two selections automatic, a second fit returns the same
    and leaves the object as it is. *)
Theorem C140_repeat_partial : forall B (W : gworld B) o v o', g_auto_bw o && g_auto_lambda o = false ->
  gtwr_fit W o = GReturned v o' -> g_terminated o' = g_terminated o -> gtwr_fit W o' = GReturned v o'.
Proof. exact C140_repeat_main. Qed.
Print Assumptions C140_repeat_partial.
(** C140 is false with both automatic: the second fit selects another bandwidth. *)
Theorem C140_repeat_refuted : exists (W : gworld (R * R)) o b o' b' o'',
  gtwr_fit W o = GReturned (GCoefficients b) o' /\ g_terminated o' = false /\
  gtwr_fit W o' = GReturned (GCoefficients b') o'' /\ wvalue (g_weight o'') <> wvalue (g_weight o') /\ b' <> b.
Proof. exact repeat_refuted. Qed.
Print Assumptions C140_repeat_refuted.
(** C140 is false: a run that throws or is cancelled leaves another lambda behind. *)
Theorem C140_kept_refuted :
  (exists (W : gworld (R * R)) o o', gtwr_fit W o = GThrew o' /\ g_lambda o' <> g_lambda o) /\
  (exists (W : gworld (R * R)) o v o', gtwr_fit W o = GReturned v o' /\ g_terminated o = false /\ g_terminated o' = true /\ g_lambda o' <> g_lambda o).
Proof. exact kept_refuted. Qed.
Print Assumptions C140_kept_refuted.
(** C140: once cancelled, every later fit with automatic lambda uses lambda 0 (purely temporal distance). *)
Theorem C140_after_cancel : forall B (W : gworld B) o, g_terminated o = true -> g_crsst o = true -> g_auto_bw o = false -> g_auto_lambda o = true ->
  gw_made W = true -> gw_stop0 W = false -> (forall k l, snd (gw_lfit W k (g_weight o) l) <> None) ->
  forall o', (exists v, gtwr_fit W o = GReturned v o') \/ gtwr_fit W o = GThrew o' -> g_lambda o' = 0.
Proof. exact C140_after_cancel_main. Qed.
Print Assumptions C140_after_cancel.
Example C140_case : exists o', gtwr_fit (failW true) failO = GReturned (GCoefficients (4, 0)) o' /\ g_lambda o' = 0 /\ g_terminated o' = true.
Proof. exact fail_cancel. Qed.

(** C141 is false: automatic lambda with a distance that is not a space-time one is not rejected, the distance object
    is used as if it were one. *)
Theorem C141_rejected_refuted : exists (W : gworld (R * R)) o, g_crsst o = false /\ g_auto_lambda o = true /\ gtwr_fit W o = GUndefined.
Proof. exact rejected_refuted. Qed.
Print Assumptions C141_rejected_refuted.
(** C141: with a given bandwidth, this is what always happens ... *)
Theorem C141_undefined : forall B (W : gworld B) o, g_crsst o = false -> g_auto_lambda o = true -> gw_stop0 W = false ->
  g_auto_bw o = false -> gtwr_fit W o = GUndefined.
Proof. exact C141_plain. Qed.
Print Assumptions C141_undefined.
(** ... and unless it is stopped before, no such run returns. *)
Theorem C141_never_returns : forall B (W : gworld B) o, g_crsst o = false -> g_auto_lambda o = true -> gw_stop0 W = false -> gw_stop1 W = false ->
  (exists o', gtwr_fit W o = GThrew o') \/ gtwr_fit W o = GUndefined.
Proof. exact C141_main. Qed.
Print Assumptions C141_never_returns.
