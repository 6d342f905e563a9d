(** C164: the golden-section search for a bandwidth in double arithmetic. *)
From Coq Require Import Reals ZArith Bool List Lra.
From Verif Require Import XReal KernelModel GoldModel GoldSpec GoldProofs2 RoundSpec Binary64 RoundAcc2 RgoldModel RgoldSpec RgoldProofs RgoldMain RgoldCases RgoldAd RgoldBig.
Import ListNotations.
Local Open Scope R_scope.

(** Without rounding the search is the one of C21-C28. *)
Theorem C164_exact : forall big crit w lo up m, 1 < big -> r_optimize (fun x => x) big crit w lo up m = optimize crit w lo up m.
Proof. exact exact_main. Qed.
Print Assumptions C164_exact.
Example C164_exact_case : exists wr st, rresult (optimize demo_crit (demo_w false) 1 10 []) = Fresh wr /\ rfinal (optimize demo_crit (demo_w false) 1 10 []) = Some st.
Proof. exact (demo_fresh false []). Qed.

(** Whatever the rounding is, the returned bandwidth has the smallest criterion of all evaluated ones. *)
Theorem C164_best : forall rn big crit w lo up m wr, no_nan crit -> rresult (r_optimize rn big crit w lo up m) = Fresh wr ->
  exists v, evaluated (r_optimize rn big crit w lo up m) wr v /\ forall w' v', evaluated (r_optimize rn big crit w lo up m) w' v' -> not_greater v v'.
Proof. exact best_main. Qed.
Print Assumptions C164_best.

Section Rounded.
Variables (rn : R -> R) (big : R).
Hypothesis RN : rounding rn big.
Hypothesis FA : faithful rn.

(** Fixed bandwidth: all evaluated bandwidths and the result are strictly between the bounds. *)
Theorem C164_inside : forall crit w lo up m, range24 lo up -> / 10000 <= up - lo -> wadaptive w = false ->
  let r := r_optimize rn big crit w lo up m in
  (forall w' v, evaluated r w' v -> lo < wvalue w' < up) /\ (forall wr, rresult r = Fresh wr -> lo < wvalue wr < up).
Proof. exact (bounds_main rn big RN FA). Qed.

(** Fixed bandwidth: in every state of the loop the two kept points are in order inside the bracket, whose width is close to that of the exact search. *)
Theorem C164_bracket : forall crit w lo up m st, range24 lo up -> / 10000 <= up - lo -> wadaptive w = false -> r_reaches rn big crit w lo up m st ->
  lo <= xL st /\ xL st < x2 st /\ x2 st < x1 st /\ x1 st < xU st /\ xU st <= up /\
  Rabs (xU st - xL st - ((sqrt 5 - 1) / 2) ^ iter st * (up - lo)) <= / 50000.
Proof. exact (bracket_main rn big RN FA). Qed.

(** Fixed bandwidth: later brackets are inside earlier ones. *)
Theorem C164_nested : forall crit w lo up m st st', range24 lo up -> / 10000 <= up - lo -> wadaptive w = false ->
  r_reaches rn big crit w lo up m st -> r_passes rn big crit w st st' -> xL st <= xL st' /\ xU st' <= xU st.
Proof. exact (passes_main rn big RN FA). Qed.

(** Fixed bandwidth, unimodal criterion: no bracket loses the minimiser. *)
Theorem C164_minimiser : forall crit w lo up g m mp st, range24 lo up -> / 10000 <= up - lo -> wadaptive w = false -> unimodal g lo up m -> answers crit g ->
  r_reaches rn big crit w lo up mp st -> xL st <= m <= xU st.
Proof. exact (unimodal_main rn big RN FA). Qed.

(** Fixed bandwidth, unimodal criterion: the result is within one bracket of the minimiser, and the search ended because the bracket is at most 0.0002 wide or
    the two criteria differ by at most 0.00010001; the limit of 100 steps is never the reason. *)
Theorem C164_result : forall crit w lo up g m mp wr st, range24 lo up -> / 10000 <= up - lo -> wadaptive w = false -> unimodal g lo up m -> answers crit g ->
  rresult (r_optimize rn big crit w lo up mp) = Fresh wr -> rfinal (r_optimize rn big crit w lo up mp) = Some st ->
  xL st <= m <= xU st /\ xL st < wvalue wr < xU st /\ Rabs (wvalue wr - m) < xU st - xL st /\
  (xU st - xL st <= 0.0002 \/ Rabs (g (x2 st) - g (x1 st)) <= 0.00010001).
Proof. exact (result_main rn big RN FA). Qed.

(** Fixed bandwidth: at most 57 evaluations, whatever the criterion answers. *)
Theorem C164_few : forall crit w lo up m, range24 lo up -> / 10000 <= up - lo -> wadaptive w = false ->
  let r := r_optimize rn big crit w lo up m in rresult r <> Diverged /\ (rcalls r <= 57)%nat.
Proof. exact (few_main rn big RN FA). Qed.

(** Fixed bandwidth, bounds closer than 0.0001: two evaluations, not outside the bounds. *)
Theorem C164_narrow : forall crit w lo up m, range24 lo up -> p2 (-900) <= up - lo < / 10000 -> rn lo = lo -> rn up = up -> wadaptive w = false ->
  let r := r_optimize rn big crit w lo up m in
  (rcalls r <= 2)%nat /\ (forall w' v, evaluated r w' v -> lo <= wvalue w' <= up) /\ (forall wr, rresult r = Fresh wr -> lo <= wvalue wr <= up).
Proof. exact (narrow_main rn big RN FA). Qed.

(** Adaptive bandwidth: integers, the first two within the bounds, the others less than the number of evaluations outside.
    Missing: staying inside, which C24_bounds_refuted shows to fail already without rounding. *)
Theorem C164_adaptive_partial : forall crit w lo up m, range24 lo up -> wadaptive w = true -> integer lo -> integer up ->
  let r := r_optimize rn big crit w lo up m in
  (forall w' v, evaluated r w' v -> integer (wvalue w') /\ lo - INR (rcalls r) < wvalue w' < up + INR (rcalls r)) /\
  (forall k w' v, (k < 2)%nat -> nth_error (rev (rlog r)) k = Some (w', v) -> lo <= wvalue w' <= up).
Proof. exact (adaptive_main rn big RN FA). Qed.
End Rounded.
Print Assumptions C164_inside.
Print Assumptions C164_bracket.
Print Assumptions C164_nested.
Print Assumptions C164_minimiser.
Print Assumptions C164_result.
Print Assumptions C164_few.
Print Assumptions C164_narrow.
Print Assumptions C164_adaptive_partial.
(** binary64 is such a rounding; between 1 and 10 the search for the minimum of (x - 4)^2 takes steps and returns a bandwidth. *)
Example C164_case : rounding binary64 binary64_big /\ faithful binary64 /\ range24 1 10 /\ / 10000 <= 10 - 1 /\ unimodal demo_g 1 10 4 /\ answers demo_crit demo_g /\ no_nan demo_crit /\
  (exists st st', r_reaches binary64 binary64_big demo_crit (demo_w false) 1 10 [] st /\ r_passes binary64 binary64_big demo_crit (demo_w false) st st' /\ iter st' = 1%nat) /\
  (forall a, exists wr st, rresult (r_optimize binary64 binary64_big demo_crit (demo_w a) 1 10 []) = Fresh wr /\ rfinal (r_optimize binary64 binary64_big demo_crit (demo_w a) 1 10 []) = Some st).
Proof.
  exact (conj b64_rounding (conj b64_faithful (conj demo_range (conj demo_wide (conj demo_unimodal (conj demo_answers (conj demo_no_nan
    (conj (demo_start binary64 binary64_big b64_rounding b64_faithful) (demo_result binary64 binary64_big b64_rounding b64_faithful))))))))).
Qed.
Example C164_adaptive_case : integer 1 /\ integer 10 /\ wadaptive (demo_w true) = true.
Proof. split; [exists 1%Z; reflexivity|]. split; [exists 10%Z; reflexivity|reflexivity]. Qed.
Example C164_narrow_case : range24 0 (p2 (-20)) /\ p2 (-900) <= p2 (-20) - 0 < / 10000 /\ binary64 0 = 0 /\ binary64 (p2 (-20)) = p2 (-20).
Proof. exact narrow_case. Qed.

(** The bounds must not be huge compared with their difference: in binary64 with bounds 2^60 and 2^60 + 256 the first two points are the bounds themselves
    and a bracket loses the minimiser. *)
Theorem C164_lost_refuted : exists crit w lo up g m st, binary64 lo = lo /\ binary64 up = up /\ lo < up /\ wadaptive w = false /\ unimodal g lo up m /\ answers crit g /\
  wvalue (r_first binary64 w lo up) = up /\ wvalue (r_second binary64 w lo up) = lo /\ r_reaches binary64 binary64_big crit w lo up [] st /\ xU st < m.
Proof. exact lost_main. Qed.
Print Assumptions C164_lost_refuted.
