(** C150: accuracy of the weights in double arithmetic.  Vocabulary: RoundSpec.v, KernelSpec.v. *)
From Coq Require Import Reals Bool List ZArith Lra Lia.
From Verif Require Import Outcome XReal XRealFacts KernelModel KernelSpec RoundModel RoundSpec RoundProofs RoundMain Binary64 RoundCases RoundAcc RoundAcc2.
Import ListNotations.
Local Open Scope R_scope.

(** Full statement: the weights are those of the textbook kernels up to the rounding of the result.  Here, on distances and
    bandwidths of moderate size: up to 2^-47 for a fixed and 2^-45 for an adaptive bandwidth, compared with the kernel at the exact
    bandwidth; not for the boxcar kernel with an adaptive bandwidth. *)
Theorem C150_weights_partial : forall k adaptive xb b xs ds,
  xval xb = Some b -> xvals xs ds -> moderate ds -> usable_rounded adaptive b ds -> INR (length ds) <= p2 53 ->
  binary64 b = b -> (adaptive = true -> k <> Boxcar) ->
  exists h0 rs, (if adaptive then adaptive_bandwidth b ds h0 else h0 = b) /\
  returns_values (r_weight binary64 binary64_big (fun x => binary64 (exp x)) k adaptive xb xs) rs /\
  Forall2 (fun d w => Rabs (w - K k d h0) <= p2 (if adaptive then -45 else -47)) ds rs.
Proof. exact b64_acc. Qed.
Print Assumptions C150_weights_partial.
(** The same for any faithful rounding and accurate exp, if the quotient of an adaptive bandwidth and a larger number of points is
    not rounded up to one ... *)
Theorem C150_roundings_partial : forall rn big fe, rounding rn big -> exponential fe -> faithful rn -> accurate_exp fe ->
  forall k adaptive xb b xs ds,
  xval xb = Some b -> xvals xs ds -> moderate ds -> usable_rounded adaptive b ds -> INR (length ds) <= p2 53 ->
  (adaptive = true -> k <> Boxcar /\ (b < INR (length ds) -> rn (b / INR (length ds)) < 1)) ->
  exists h0 rs, (if adaptive then adaptive_bandwidth b ds h0 else h0 = b) /\ returns_values (r_weight rn big fe k adaptive xb xs) rs /\
  Forall2 (fun d w => Rabs (w - K k d h0) <= p2 (if adaptive then -45 else -47)) ds rs.
Proof. exact acc_main. Qed.
Print Assumptions C150_roundings_partial.
(** ... which binary64 does not do, and it is a faithful rounding. *)
Theorem C150_binary64 : faithful binary64 /\ accurate_exp (fun x => binary64 (exp x)) /\
  forall b n, binary64 b = b -> 1 <= b -> INR n <= p2 53 -> b < INR n -> binary64 (b / INR n) < 1.
Proof. exact (conj b64_faithful (conj b64_exp_accurate b64_quot)). Qed.
Print Assumptions C150_binary64.
(** The adaptive bandwidth itself has a relative error of at most 2^-49. *)
Theorem C150_bandwidth_partial : forall rn big, rounding rn big -> faithful rn -> forall b ds h h0,
  moderate ds -> usable_rounded true b ds -> INR (length ds) <= p2 53 -> (b < INR (length ds) -> rn (b / INR (length ds)) < 1) ->
  adaptive_rounded rn b ds h -> adaptive_bandwidth b ds h0 -> Rabs (h - h0) <= p2 (-49) * h0.
Proof. exact bandwidth_acc. Qed.
Print Assumptions C150_bandwidth_partial.
(** With the boxcar kernel a rounded adaptive bandwidth can drop a neighbour that is closer than the exact one: a weight of 0
    instead of 1, in the moderate range and with all inputs doubles. *)
Theorem C150_boxcar_refuted : forall fe, exists b h0 ds rs,
  moderate ds /\ usable_rounded true b ds /\ binary64 b = b /\ Forall (fun d => binary64 d = d) ds /\
  adaptive_bandwidth b ds h0 /\ returns_values (r_weight binary64 binary64_big fe Boxcar true (XF b) (map XF ds)) rs /\
  exists d, nth_error ds 0 = Some d /\ K Boxcar d h0 = 1 /\ nth_error rs 0 = Some 0.
Proof. exact box_main. Qed.
Print Assumptions C150_boxcar_refuted.
Ltac decs := repeat match goal with
  | |- context [if Req_EM_T ?x ?y then _ else _] => destruct (Req_EM_T x y); try lra
  end.
Example C150_case : xval (XF (5/4)) = Some (5/4) /\ xvals (map XF [0; 1; 3; 2]) [0; 1; 3; 2] /\ moderate [0; 1; 3; 2] /\
  usable_rounded false (5/4) [0; 1; 3; 2] /\ usable_rounded true 2 [0; 1; 3; 2] /\ INR 4 <= p2 53 /\ binary64 (5/4) = 5/4 /\ binary64 2 = 2.
Proof.
  assert (A : p2 (-50) <= p2 0) by (apply p2_le; lia). assert (B : p2 2 <= p2 40) by (apply p2_le; lia). assert (D : p2 2 <= p2 50) by (apply p2_le; lia).
  assert (E : p2 2 <= p2 53) by (apply p2_le; lia). rewrite p2_0 in A. assert (F : p2 2 = 4) by (unfold p2; simpl; lra). rewrite F in *.
  split; [reflexivity|]. split; [reflexivity|]. split; [repeat (apply Forall_cons; [first [left; lra | right; lra]|]); apply Forall_nil|].
  split; [unfold usable_rounded; lra|]. split; [unfold usable_rounded, count_zero; simpl; decs; simpl; repeat split; try lra; lia|]. split; [simpl; lra|]. split.
  - replace (5 / 4) with (1 + p2 (-2)) by (unfold p2; simpl; lra). apply b64_above1. lia.
  - rewrite <- p2_1. apply b64_p2. lia.
Qed.
