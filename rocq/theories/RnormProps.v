(** C161: local normal equations and residual sums of squares computed in doubles.
    [rounding], [faithful] and [binary64] are in RoundSpec.v; [order] in RgwssModel.v; [adds] and [reads] in RgwssSpec.v;
    [r_cross], [r_cross_dr], [r_rss] in RnormModel.v; everything else in RnormSpec.v. *)
From Coq Require Import Reals List ZArith.
From Verif Require Import XReal RoundModel RoundSpec RdistSpec RgwssModel RgwssSpec RgwssCases RnormModel RnormSpec RnormProofs RnormMain RnormCases.
Local Open Scope R_scope.

(** For n at most 2^40 weights in [0, 1] and columns of numbers of magnitude at most 2^400, in any order of summation, an entry of
    the normal equations is a number within n (2^-49 S + 2^-590) of the weighted cross product, S being the sum of the magnitudes of its terms;
    so is an entry of the right-hand side in density regression.  Missing: larger numbers. *)
Theorem C161_cross_partial : forall rn big, rounding rn big -> faithful rn -> forall n w a b fw fa fb t,
  unit_weights n w -> moderate_column n a -> moderate_column n b -> reads n fw w -> reads n fa a -> reads n fb b -> adds n t ->
  let close x := exists v, xval x = Some v /\ Rabs (v - cross_of n w a b) <= INR n * (p2 (-49) * size_of n w a b + p2 (-590)) in
  close (r_cross rn big t fw fa fb) /\ close (r_cross_dr rn big t fw fa fb).
Proof. exact cross_main. Qed.
Print Assumptions C161_cross_partial.
(** The two entries that should be equal differ by at most twice that. *)
Theorem C161_asymmetry_partial : forall rn big, rounding rn big -> faithful rn -> forall n w a b fw fa fb t t',
  unit_weights n w -> moderate_column n a -> moderate_column n b -> reads n fw w -> reads n fa a -> reads n fb b -> adds n t -> adds n t' ->
  exists u v, xval (r_cross rn big t fw fa fb) = Some u /\ xval (r_cross rn big t' fw fb fa) = Some v /\
  Rabs (u - v) <= INR n * (p2 (-48) * size_of n w a b + p2 (-589)).
Proof. exact asymmetry_main. Qed.
Print Assumptions C161_asymmetry_partial.
(** A diagonal entry is never negative, and positive when a row with a weight of at least 2^-400 has a number of magnitude at least 2^-200. *)
Theorem C161_diagonal_partial : forall rn big, rounding rn big -> faithful rn -> forall n w a fw fa t,
  unit_weights n w -> moderate_column n a -> reads n fw w -> reads n fa a -> adds n t ->
  exists v, xval (r_cross rn big t fw fa fa) = Some v /\ 0 <= v /\
  ((exists j, (j < n)%nat /\ p2 (-400) <= w j /\ p2 (-200) <= Rabs (a j)) -> 0 < v).
Proof. exact diagonal_main. Qed.
Print Assumptions C161_diagonal_partial.
Example C161_cross_case : unit_weights 2 cw /\ moderate_column 2 ea /\ moderate_column 2 cx /\ reads 2 (fun j => XF (cw j)) cw /\
  reads 2 (fun j => XF (ea j)) ea /\ reads 2 (fun j => XF (cx j)) cx /\ adds 2 two /\ cross_of 2 cw ea cx = - (15 / 2) /\
  exists j, (j < 2)%nat /\ p2 (-400) <= cw j /\ p2 (-200) <= Rabs (ea j).
Proof. exact (conj cw_unit (conj ea_mod (conj cx_mod (conj (XF_reads 2 cw) (conj (XF_reads 2 ea) (conj (XF_reads 2 cx) (conj two_adds (conj ea_cross cw_row)))))))). Qed.

(** Refuted in binary64: the computed matrix of the normal equations, which is handed to inv_sympd, is symmetric.  One row with weight 1 - 2^-53 and numbers 3
    and 5 gives 15 - 2^-49 in one corner and 15 - 2^-48 in the other. *)
Theorem C161_symmetric_refuted : exists w a b, unit_weights 1 w /\ is_double (w 0%nat) /\ is_double (a 0%nat) /\ is_double (b 0%nat) /\
  let fw := fun j => XF (w j) in let fa := fun j => XF (a j) in let fb := fun j => XF (b j) in
  xval (r_cross binary64 binary64_big (Leaf 0) fw fa fb) = Some (15 - p2 (-49)) /\
  xval (r_cross binary64 binary64_big (Leaf 0) fw fb fa) = Some (15 - p2 (-48)).
Proof. exact symmetric_fails. Qed.
Print Assumptions C161_symmetric_refuted.

(** The residual sum of squares of at most 2^40 rows and k columns is a number, never negative, and within n 2^-49 of its value, relatively, plus
    n k^3 2^-45 M^2, M bounding the dependent variable and the terms of the fitted values (2^-400 <= M <= 2^400).  Missing: larger numbers. *)
Theorem C161_rss_partial : forall rn big, rounding rn big -> faithful rn -> forall n k beta x y M fb fx fy tc tr,
  terms_within M n k beta x y -> INR n <= p2 40 -> INR k <= p2 40 -> reads2 n k fb beta -> reads2 n k fx x -> reads n fy y -> adds k tc -> adds n tr ->
  exists v, xval (r_rss rn big tc tr fb fx fy) = Some v /\ 0 <= v /\
  Rabs (v - rss_of n k beta x y) <= INR n * p2 (-49) * rss_of n k beta x y + INR n * INR k ^ 3 * p2 (-45) * M ^ 2.
Proof. exact rss_main. Qed.
Print Assumptions C161_rss_partial.
Example C161_rss_case : terms_within 3 2 2 hb gx hy /\ reads2 2 2 (fun j c => XF (hb j c)) hb /\ reads2 2 2 (fun j c => XF (gx j c)) gx /\
  reads 2 (fun j => XF (hy j)) hy /\ adds 2 two /\ rss_of 2 2 hb gx hy = 5.
Proof. exact (conj h_within (conj (XF_reads2 2 2 hb) (conj (XF_reads2 2 2 gx) (conj (XF_reads 2 hy) (conj two_adds h_rss))))). Qed.

(** Refuted in binary64: the residual sum of squares of a perfect fit is zero.  The coefficients 1, 2^-53, 2^-53 with all x = 1 give 1 + 2^-52 exactly,
    but the rounded sum is 1. *)
Theorem C161_perfect_refuted : exists beta x y tc, terms_within 2 1 3 beta x y /\ adds 3 tc /\ is_double (y 0%nat) /\
  (forall c, (c < 3)%nat -> is_double (beta 0%nat c) /\ is_double (x 0%nat c)) /\
  rss_of 1 3 beta x y = 0 /\
  xval (r_rss binary64 binary64_big tc (Leaf 0) (fun j c => XF (beta j c)) (fun j c => XF (x j c)) (fun j => XF (y j))) = Some (p2 (-104)).
Proof. exact perfect_fails. Qed.
Print Assumptions C161_perfect_refuted.
(** Refuted in binary64: a fit that is not perfect has a positive residual sum of squares.  The square of 2^-600 underflows. *)
Theorem C161_zero_refuted : exists beta x y, terms_within 1 1 1 beta x y /\ is_double (beta 0%nat 0%nat) /\ is_double (x 0%nat 0%nat) /\ is_double (y 0%nat) /\
  rss_of 1 1 beta x y > 0 /\
  xval (r_rss binary64 binary64_big (Leaf 0) (Leaf 0) (fun j c => XF (beta j c)) (fun j c => XF (x j c)) (fun j => XF (y j))) = Some 0.
Proof. exact zero_fails. Qed.
Print Assumptions C161_zero_refuted.
