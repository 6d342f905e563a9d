(** C156: local means and variances computed in doubles.
    [rounding], [faithful] and [binary64] are in RoundSpec.v; [order], [r_mean], [r_variance], [r_sd], [r_skewness] in RgwssModel.v;
    everything else in RgwssSpec.v. *)
From Coq Require Import Reals List ZArith Permutation.
From Verif Require Import XReal RoundModel RoundSpec RdistSpec RgwssModel RgwssSpec RgwssCases.
Local Open Scope R_scope.

(** For n at most 2^40 observations of magnitude at most M (2^-400 <= M <= 2^400), in any order of summation, the local mean is
    within n 2^-48 M of the weighted mean.  Missing: weights that are all below 2^-400, and larger numbers. *)
Theorem C156_mean_partial : forall rn big, rounding rn big -> faithful rn -> forall n w x M fw fx t1 t2,
  kernel_weights n w -> within M n x -> reads n fw w -> reads n fx x -> adds n t1 -> adds n t2 ->
  exists m, xval (r_mean rn big t1 t2 fw fx) = Some m /\ Rabs (m - mean_of n w x) <= INR n * p2 (-48) * M.
Proof. exact mean_main. Qed.
Print Assumptions C156_mean_partial.
(** The local variance is a number, never negative, within n 2^-44 M^2 of the weighted variance; ... *)
Theorem C156_variance_partial : forall rn big, rounding rn big -> faithful rn -> forall n w x M fw fx t1 t2 t3,
  kernel_weights n w -> within M n x -> reads n fw w -> reads n fx x -> adds n t1 -> adds n t2 -> adds n t3 ->
  exists v, xval (r_variance rn big t1 t2 t3 fw fx) = Some v /\ 0 <= v /\
  Rabs (v - variance_of n w x) <= INR n * p2 (-44) * M ^ 2.
Proof. exact variance_main. Qed.
Print Assumptions C156_variance_partial.
(** ... so the standard deviation is a number, too, but half of the digits are lost when it is small. *)
Theorem C156_sd_partial : forall rn big, rounding rn big -> faithful rn -> forall n w x M fw fx t1 t2 t3,
  kernel_weights n w -> within M n x -> reads n fw w -> reads n fx x -> adds n t1 -> adds n t2 -> adds n t3 ->
  exists s, xval (r_sd rn big t1 t2 t3 fw fx) = Some s /\ 0 <= s /\
  Rabs (s - sqrt (variance_of n w x)) <= sqrt (INR n) * p2 (-21) * M.
Proof. exact sd_main. Qed.
Print Assumptions C156_sd_partial.
Example C156_case : kernel_weights 2 cw /\ within 3 2 cx /\ reads 2 (fun j => XF (cw j)) cw /\ reads 2 (fun j => XF (cx j)) cx /\ adds 2 two.
Proof. exact (conj cw_weights (conj cx_within (conj (XF_reads 2 cw) (conj (XF_reads 2 cx) two_adds)))). Qed.

(** Refuted in binary64: the mean of equal numbers is that number.  With weights 1/4 and 1 the mean of 3 and 3 is above 3,
    the variance is not zero, and the skewness, undefined for a constant, is -1. *)
Theorem C156_constant_refuted : exists w x t, kernel_weights 2 w /\ adds 2 t /\
  (forall j, (j < 2)%nat -> is_double (w j) /\ is_double (x j) /\ x j = 3) /\
  let fw := fun j => XF (w j) in let fx := fun j => XF (x j) in
  xval (r_mean binary64 binary64_big t t fw fx) = Some (3 + p2 (-51)) /\
  xval (r_variance binary64 binary64_big t t t fw fx) = Some (p2 (-102)) /\
  xval (r_sd binary64 binary64_big t t t fw fx) = Some (p2 (-51)) /\
  xval (r_skewness binary64 binary64_big t t t t fw fx) = Some (-1).
Proof. exact constant_fails. Qed.
Print Assumptions C156_constant_refuted.
Example C156_exact_case : mean_of 2 cw cx = 3 /\ variance_of 2 cw cx = 0.
Proof. exact cx_moments. Qed.
