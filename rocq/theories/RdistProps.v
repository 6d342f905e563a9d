(** C153, C154: planar distances in double arithmetic and the weights computed from them.
    Vocabulary: RdistSpec.v, RoundSpec.v, KernelSpec.v. *)
From Coq Require Import Reals Bool List ZArith Lra Lia.
From Verif Require Import Outcome XReal KernelModel KernelSpec RoundModel RoundSpec RoundProofs Binary64 RoundAcc2 RdistModel RdistSpec RdistProofs RdistCases RdistW.
Import ListNotations.
Local Open Scope R_scope.

(** C153.  Full statement: rounded at every operation, planar distances are still finite, non-negative, zero exactly at coincident
    points, symmetric, increasing in the coordinate differences, subject to the triangle inequality, and accurate.
    Here for every monotone rounding: finite, non-negative, zero for coincident points, and away from zero for points whose
    coordinates are equal or differ by at least 2^-400 ... *)
Theorem C153_zero_partial : forall rn big, rounding rn big -> forall xo xp o p,
  at_point xo o -> at_point xp p -> placed o -> placed p ->
  exists d, xval (r_euclid rn big xo xp) = Some d /\ 0 <= d /\ (p = o -> d = 0) /\ (separated o p -> p <> o -> p2 (-400) <= d).
Proof. exact zero_main. Qed.
Print Assumptions C153_zero_partial.
(** ... symmetric and increasing, if the rounding does not depend on the sign ... *)
Theorem C153_symmetric_partial : forall rn big, rounding rn big -> odd rn -> forall xo xp o p,
  at_point xo o -> at_point xp p -> placed o -> placed p ->
  xval (r_euclid rn big xo xp) = xval (r_euclid rn big xp xo).
Proof. exact sym_main. Qed.
Print Assumptions C153_symmetric_partial.
Theorem C153_increasing_partial : forall rn big, rounding rn big -> odd rn -> forall xo xp xq o p q,
  at_point xo o -> at_point xp p -> at_point xq q -> placed o -> placed p -> placed q ->
  Rabs (fst p - fst o) <= Rabs (fst q - fst o) -> Rabs (snd p - snd o) <= Rabs (snd q - snd o) ->
  exists d d', xval (r_euclid rn big xo xp) = Some d /\ xval (r_euclid rn big xo xq) = Some d' /\ d <= d'.
Proof. exact mono_main. Qed.
Print Assumptions C153_increasing_partial.
(** ... with a relative error of at most 2^-50, if it is faithful, too ... *)
Theorem C153_accurate_partial : forall rn big, rounding rn big -> faithful rn -> odd rn -> forall xo xp o p,
  at_point xo o -> at_point xp p -> placed o -> placed p -> separated o p ->
  exists d, xval (r_euclid rn big xo xp) = Some d /\ Rabs (d - planar o p) <= p2 (-50) * planar o p.
Proof. exact acc_main. Qed.
Print Assumptions C153_accurate_partial.
(** ... and with the triangle inequality up to a factor of 1 + 2^-48. *)
Theorem C153_triangle_partial : forall rn big, rounding rn big -> faithful rn -> odd rn -> forall xa xb xc a b c,
  at_point xa a -> at_point xb b -> at_point xc c -> placed a -> placed b -> placed c ->
  separated a b -> separated b c -> separated a c ->
  exists ab bc ac, xval (r_euclid rn big xa xb) = Some ab /\ xval (r_euclid rn big xb xc) = Some bc /\ xval (r_euclid rn big xa xc) = Some ac /\
  ac <= (1 + p2 (-48)) * (ab + bc).
Proof. exact triangle_main. Qed.
Print Assumptions C153_triangle_partial.
(** Binary64 is all of this. *)
Theorem C153_binary64 : rounding binary64 binary64_big /\ faithful binary64 /\ odd binary64.
Proof. exact (conj b64_rounding (conj b64_faithful b64_odd)). Qed.
Print Assumptions C153_binary64.
Example C153_case : at_point (pair_XF ta) ta /\ at_point (pair_XF tb) tb /\ at_point (pair_XF tc) tc /\
  (placed ta /\ placed tb /\ placed tc) /\ separated ta tb /\ separated tb tc /\ separated ta tc.
Proof. exact (conj (pair_at ta) (conj (pair_at tb) (conj (pair_at tc) (conj ta_placed ta_sep)))). Qed.

(** Refuted in binary64: the triangle inequality itself, by three points with double coordinates; ... *)
Theorem C153_triangle_refuted : exists a b c ab bc ac,
  Forall (fun p => is_double (fst p) /\ is_double (snd p) /\ placed p) [a; b; c] /\ separated a b /\ separated b c /\ separated a c /\
  xval (r_euclid binary64 binary64_big (pair_XF a) (pair_XF b)) = Some ab /\
  xval (r_euclid binary64 binary64_big (pair_XF b) (pair_XF c)) = Some bc /\
  xval (r_euclid binary64 binary64_big (pair_XF a) (pair_XF c)) = Some ac /\
  ab + bc < ac.
Proof. exact triangle_fails. Qed.
Print Assumptions C153_triangle_refuted.
(** ... distinct points up to 2^-538 apart are at distance zero; ... *)
Theorem C153_near_refuted : forall d, 0 < d <= p2 (-538) ->
  xval (r_euclid binary64 binary64_big (XF 0, XF 0) (XF d, XF 0)) = Some 0.
Proof. exact near_zero. Qed.
Print Assumptions C153_near_refuted.
(** ... and from 2^512 on distances are infinite. *)
Theorem C153_far_refuted : forall d, p2 512 <= d ->
  r_euclid binary64 binary64_big (XF 0, XF 0) (XF d, XF 0) = XI false.
Proof. exact far_infinite. Qed.
Print Assumptions C153_far_refuted.
Example C153_refuted_case : 0 < p2 (-600) <= p2 (-538) /\ is_double (p2 (-600)) /\ p2 512 <= p2 600 /\ is_double (p2 600).
Proof. repeat split; try (apply p2_pos); try (apply p2_le; lia); apply b64_p2; lia. Qed.

(** C154.  Full statement: the weights computed from coordinates are those of the textbook kernels at the exact distances, up to
    rounding.  Here in binary64, for distances and bandwidths of moderate size and every kernel but the boxcar: up to 2^-45 for a fixed
    bandwidth, and up to 2^-44 for an adaptive one, compared with the adaptive bandwidth of the exact distances. *)
Theorem C154_weights_partial : forall k adaptive xb b xo xps o ps,
  xval xb = Some b -> at_point xo o -> Forall2 at_point xps ps -> placed o -> Forall placed ps -> Forall (separated o) ps ->
  Forall (fun p => planar o p = 0 \/ p2 (-49) <= planar o p <= p2 49) ps ->
  usable_rounded adaptive b (map (planar o) ps) -> INR (length ps) <= p2 53 -> is_double b -> k <> Boxcar ->
  exists h0 rs, (if adaptive then adaptive_bandwidth b (map (planar o) ps) h0 else h0 = b) /\
  returns_values (r_weight_vector binary64 binary64_big (fun x => binary64 (exp x)) k adaptive xb xo xps) rs /\
  Forall2 (fun p w => Rabs (w - K k (planar o p) h0) <= p2 (if adaptive then -44 else -45)) ps rs.
Proof. exact vector_main. Qed.
Print Assumptions C154_weights_partial.
Example C154_case : Forall2 at_point [pair_XF tb; pair_XF tc] [tb; tc] /\ Forall placed [tb; tc] /\ Forall (separated ta) [tb; tc] /\
  Forall (fun p => planar ta p = 0 \/ p2 (-49) <= planar ta p <= p2 49) [tb; tc] /\
  usable_rounded true 2 (map (planar ta) [tb; tc]) /\ usable_rounded false 2 (map (planar ta) [tb; tc]) /\ is_double 2.
Proof. exact vector_case. Qed.
(** Refuted for the boxcar kernel: a neighbour closer than the (fixed) bandwidth has weight zero instead of one. *)
Theorem C154_boxcar_refuted : forall fe, exists b o p,
  is_double b /\ Forall (fun q => is_double (fst q) /\ is_double (snd q) /\ placed q) [o; p] /\ separated o p /\
  p2 (-49) <= planar o p <= p2 49 /\ usable_rounded false b [planar o p] /\
  planar o p < b /\ returns_values (r_weight_vector binary64 binary64_big fe Boxcar false (XF b) (pair_XF o) [pair_XF p]) [0].
Proof. exact boxcar_lost. Qed.
Print Assumptions C154_boxcar_refuted.
