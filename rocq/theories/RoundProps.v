(** C149: the weights in double arithmetic.  Vocabulary: RoundSpec.v, KernelSpec.v. *)
From Coq Require Import Reals Bool List ZArith Lra Lia.
From Verif Require Import Outcome XReal XRealFacts KernelModel KernelSpec RoundModel RoundSpec RoundProofs RoundMain Binary64 RoundCases.
Import ListNotations.
Local Open Scope R_scope.

(** Full statement: rounded at every operation, the weights are still finite, in [0,1], one at distance zero, decreasing in
    distance and, for the compact kernels, zero from the bandwidth on (C01-C04).  Here for every monotone rounding, but only for
    distances and bandwidths of moderate size ... *)
Theorem C149_rounded_partial : forall rn big fe, rounding rn big -> exponential fe -> forall k adaptive xb b xs ds,
  xval xb = Some b -> xvals xs ds -> moderate ds -> usable_rounded adaptive b ds -> INR (length ds) <= p2 53 ->
  exists h rs, (if adaptive then adaptive_rounded rn b ds h else h = b) /\ returns_values (r_weight rn big fe k adaptive xb xs) rs /\
  length rs = length ds /\ Forall (fun w => 0 <= w <= 1) rs /\
  (forall i, nth_error ds i = Some 0 -> nth_error rs i = Some 1) /\
  (forall i j di dj, nth_error ds i = Some di -> nth_error ds j = Some dj -> di <= dj ->
     exists wi wj, nth_error rs i = Some wi /\ nth_error rs j = Some wj /\ wj <= wi) /\
  (compact k = true -> forall i d, nth_error ds i = Some d -> h <= d -> nth_error rs i = Some 0).
Proof. exact r_weight_main. Qed.
Print Assumptions C149_rounded_partial.
(** ... where the rounded adaptive bandwidth still reaches the b nearest neighbours ... *)
Theorem C149_reach_partial : forall rn big, rounding rn big -> forall b ds h,
  moderate ds -> usable_rounded true b ds -> adaptive_rounded rn b ds h ->
  forall k dk, INR k <= b -> kth_smallest k ds dk -> rn dk <= h.
Proof. exact r_reach. Qed.
Print Assumptions C149_reach_partial.
(** ... and IEEE binary64, rounding to nearest even, is such a rounding, and a correctly rounded exp such an exponential. *)
Theorem C149_binary64 : rounding binary64 binary64_big /\ exponential (fun x => binary64 (exp x)).
Proof. exact (conj b64_rounding exp64_ok). Qed.
Print Assumptions C149_binary64.
Ltac decs := repeat match goal with
  | |- context [if Req_EM_T ?x ?y then _ else _] => destruct (Req_EM_T x y); try lra
  end.
Example C149_case : xval (XF (5/2)) = Some (5/2) /\ xvals (map XF [0; 1; 3; 2]) [0; 1; 3; 2] /\
  moderate [0; 1; 3; 2] /\ usable_rounded true (5/2) [0; 1; 3; 2] /\ usable_rounded false (5/2) [0; 1; 3; 2] /\ INR 4 <= p2 53.
Proof.
  assert (A : p2 (-50) <= p2 0) by (apply p2_le; lia). assert (B : p2 2 <= p2 40) by (apply p2_le; lia). assert (D : p2 2 <= p2 50) by (apply p2_le; lia).
  assert (E : p2 2 <= p2 53) by (apply p2_le; lia). rewrite p2_0 in A. assert (F : p2 2 = 4) by (unfold p2; simpl; lra). rewrite F in *.
  split; [reflexivity|]. split; [reflexivity|]. split; [repeat (apply Forall_cons; [first [left; lra | right; lra]|]); apply Forall_nil|].
  unfold usable_rounded, count_zero; simpl. decs. simpl. repeat split; try lra; lia.
Qed.

(** Outside that range weights are not numbers in binary64: with a fixed bandwidth of one, at every distance from 2^115 on for the
    tricube kernel and from 2^257 on for the bisquare kernel, where zero is multiplied by an infinite power; ... *)
Theorem C149_far_refuted : forall fe d,
  (p2 115 <= d -> r_weight binary64 binary64_big fe Tricube false (XF 1) [XF d] = Ok [XN]) /\
  (p2 257 <= d -> r_weight binary64 binary64_big fe Bisquare false (XF 1) [XF d] = Ok [XN]).
Proof. exact far_main. Qed.
Print Assumptions C149_far_refuted.
(** ... for the Gaussian kernel when distance and bandwidth are both 2^512 or more; ... *)
Theorem C149_large_refuted : forall fe d h, p2 512 <= d -> p2 512 <= h ->
  r_weight binary64 binary64_big fe Gaussian false (XF h) [XF d] = Ok [XN].
Proof. exact large_main. Qed.
Print Assumptions C149_large_refuted.
(** ... and at distance zero when a positive bandwidth is 2^-538 or less. *)
Theorem C149_small_refuted : forall fe h, 0 < h <= p2 (-538) ->
  r_weight binary64 binary64_big fe Gaussian false (XF h) [XF 0] = Ok [XN] /\
  r_weight binary64 binary64_big fe Bisquare false (XF h) [XF 0] = Ok [XN].
Proof. exact small_main. Qed.
Print Assumptions C149_small_refuted.
(** The weights of the kernels without a cut-off are not always positive (C04), even in the moderate range. *)
Theorem C149_positive_refuted : forall d, 1075 <= d <= p2 50 ->
  returns_values (r_weight binary64 binary64_big (fun x => binary64 (exp x)) Exponential false (XF 1) [XF d]) [0] /\
  moderate [d] /\ usable_rounded false 1 [d] /\ compact Exponential = false.
Proof. exact vanish_main. Qed.
Print Assumptions C149_positive_refuted.
Example C149_positive_case : 1075 <= 2000 <= p2 50.
Proof. assert (A : p2 11 <= p2 50) by (apply p2_le; lia). assert (B : p2 11 = 2048) by (unfold p2; simpl; lra). lra. Qed.
