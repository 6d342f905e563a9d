(** Property theorems C21-C28: bandwidth selection.  Vocabulary: GoldSpec.v. *)
From Coq Require Import Reals ZArith Bool List Lra.
From Verif Require Import XReal KernelModel GoldModel GoldSpec GoldProofs GoldProofs2.
Import ListNotations.
Local Open Scope R_scope.

(** C21: a normally finished search returns a weight that was evaluated, and its
    criterion is not greater than any evaluated criterion (no value being NaN). *)
Theorem C21_best_evaluated : forall crit w lo up m wr, no_nan crit ->
  rresult (optimize crit w lo up m) = Fresh wr ->
  exists v, evaluated (optimize crit w lo up m) wr v /\
    forall w' v', evaluated (optimize crit w lo up m) w' v' -> not_greater v v'.
Proof. exact C21_main. Qed.
Print Assumptions C21_best_evaluated.
Example C21_case : no_nan demo_crit /\ forall a, exists wr st,
  rresult (optimize demo_crit (demo_w a) 1 10 []) = Fresh wr /\
  rfinal (optimize demo_crit (demo_w a) 1 10 []) = Some st.
Proof. exact (conj demo_no_nan (fun a => demo_fresh a [])). Qed.

(** Without the NaN hypothesis C21 is false: the search can return a bandwidth
    whose only evaluation is NaN although a finite value was seen. *)
Theorem C21_nan_refuted : exists crit w lo up wr w',
  let r := optimize crit w lo up [] in
  rresult r = Fresh wr /\ evaluated r w' (XF 1) /\ (forall v, evaluated r wr v -> v = XN).
Proof. exact C21_nan_refuted_main. Qed.
Print Assumptions C21_nan_refuted.

(** C22: at most 102 criterion calls, and the search always ends, for every
    criterion, cancellation and exception behaviour. *)
Theorem C22_terminates : forall crit w lo up m, let r := optimize crit w lo up m in
  (rcalls r <= 102)%nat /\ (length (rlog r) <= rcalls r)%nat /\ rresult r <> Diverged.
Proof. exact C22_main. Qed.
Print Assumptions C22_terminates.

(** C23: with a fixed bandwidth, everything evaluated and the result lie strictly
    inside the bounds. *)
Theorem C23_inside : forall crit w lo up m, wadaptive w = false -> lo < up ->
  let r := optimize crit w lo up m in
  (forall w' v, evaluated r w' v -> lo < wvalue w' < up) /\
  (forall wr, rresult r = Fresh wr -> lo < wvalue wr < up).
Proof. exact C23_main. Qed.
Print Assumptions C23_inside.

(** C23: in every step the bracket is nested in the previous one and shrinks by
    the golden ratio. *)
Theorem C23_bracket : forall crit w lo up m st st', wadaptive w = false -> lo < up ->
  reaches crit w lo up m st -> guard st = true -> step crit w st = Some st' ->
  lo <= xL st /\ xL st < x2 st /\ x2 st < x1 st /\ x1 st < xU st /\ xU st <= up /\
  xL st <= xL st' /\ xU st' <= xU st /\
  xU st' - xL st' = (sqrt 5 - 1) / 2 * (xU st - xL st) /\
  xU st - xL st = ((sqrt 5 - 1) / 2) ^ iter st * (up - lo).
Proof. exact C23_bracket_main. Qed.
Print Assumptions C23_bracket.
Example C23_case : exists st st', reaches demo_crit (demo_w false) 1 10 [] st /\
  guard st = true /\ step demo_crit (demo_w false) st = Some st'.
Proof. exact demo_guard. Qed.

(** C24, true part: with an adaptive bandwidth and integer bounds all evaluated
    bandwidths are integers, the first two are within the bounds, and the later
    ones leave the bounds by less than the number of evaluations.
    Missing: staying inside the bounds, refuted below. *)
Theorem C24_integers_partial : forall crit w lo up m, wadaptive w = true ->
  integer lo -> integer up -> lo <= up ->
  let r := optimize crit w lo up m in
  (forall w' v, evaluated r w' v -> integer (wvalue w') /\
     lo - INR (rcalls r) < wvalue w' < up + INR (rcalls r)) /\
  (forall k w' v, (k < 2)%nat -> nth_error (rev (rlog r)) k = Some (w', v) -> lo <= wvalue w' <= up).
Proof. exact C24_main. Qed.
Print Assumptions C24_integers_partial.

(** C24 is false: with bounds 20 and 28 and criterion |b - 21| the search
    evaluates a bandwidth below the lower bound. *)
Theorem C24_bounds_refuted : exists crit w lo up, consistent crit /\ never_raises crit /\
  (forall k w' ok v, crit k w' = Answer ok v -> ok = true) /\
  wadaptive w = true /\ integer lo /\ integer up /\ lo < up /\
  exists w' v, evaluated (optimize crit w lo up []) w' v /\ wvalue w' < lo.
Proof. exact C24_refuted_main. Qed.
Print Assumptions C24_bounds_refuted.

(** C25: for a strictly unimodal criterion every bracket contains the minimiser. *)
Theorem C25_bracket_contains_minimiser : forall crit w lo up g m mp st, wadaptive w = false -> lo < up ->
  unimodal g lo up m -> answers crit g ->
  reaches crit w lo up mp st -> xL st <= m <= xU st.
Proof. exact C25_main. Qed.
Print Assumptions C25_bracket_contains_minimiser.

(** C25: the returned bandwidth is within one bracket width of the minimiser. *)
Theorem C25_result : forall crit w lo up g m mp wr st, wadaptive w = false -> lo < up ->
  unimodal g lo up m -> answers crit g ->
  rresult (optimize crit w lo up mp) = Fresh wr -> rfinal (optimize crit w lo up mp) = Some st ->
  xL st <= m <= xU st /\ xL st < wvalue wr < xU st /\ Rabs (wvalue wr - m) < xU st - xL st.
Proof. exact C25_result_main. Qed.
Print Assumptions C25_result.
Example C25_case : unimodal demo_g 1 10 4 /\ answers demo_crit demo_g /\ exists wr st,
  rresult (optimize demo_crit (demo_w false) 1 10 []) = Fresh wr /\
  rfinal (optimize demo_crit (demo_w false) 1 10 []) = Some st.
Proof. exact (conj demo_unimodal (conj demo_answers (demo_fresh false []))). Qed.

(** C25: the search ends only when the bracket or the difference of the two criteria is small, or after 100 steps
    (when the bracket is smaller than the interval by the 100th power of the golden ratio). *)
Theorem C25_stops : forall crit w lo up g mp wr st, wadaptive w = false -> lo < up -> answers crit g ->
  rresult (optimize crit w lo up mp) = Fresh wr -> rfinal (optimize crit w lo up mp) = Some st ->
  xU st - xL st = ((sqrt 5 - 1) / 2) ^ iter st * (up - lo) /\
  ((sqrt 5 - 1) / 2 * (xU st - xL st) <= / 10000 \/ Rabs (g (x2 st) - g (x1 st)) <= / 10000 \/ iter st = 100%nat).
Proof. exact C25_stop_main. Qed.
Print Assumptions C25_stops.

(** The bracket need not be small: the search also stops as soon as two criteria
    differ by at most 1e-4, at a third of the interval from the minimiser. *)
Theorem C25_accuracy_refuted : exists crit g lo up m wr,
  unimodal g lo up m /\ answers crit g /\
  rresult (optimize crit (mkWeight Gaussian false 0) lo up []) = Fresh wr /\
  Rabs (wvalue wr - m) > (up - lo) / 3.
Proof. exact C25_refuted_main. Qed.
Print Assumptions C25_accuracy_refuted.

(** C26: kernel and adaptive flag are those of the initial weight, in every
    evaluation and in the result. *)
Theorem C26_kernel_kept : forall crit w lo up m, let r := optimize crit w lo up m in
  (forall w' v, evaluated r w' v -> wkernel w' = wkernel w /\ wadaptive w' = wadaptive w) /\
  (forall wr, rresult r = Fresh wr -> wkernel wr = wkernel w /\ wadaptive wr = wadaptive w).
Proof. exact C26_main. Qed.
Print Assumptions C26_kernel_kept.

(** C26: the original object is returned exactly when some criterion call
    reported a status other than success. *)
Theorem C26_cancelled : forall crit w lo up m, never_raises crit -> let r := optimize crit w lo up m in
  (rresult r = Original <->
   exists k w' v, nth_error (rev (rlog r)) k = Some (w', v) /\ crit k w' = Answer false v).
Proof. exact C26_cancel_main. Qed.
Print Assumptions C26_cancelled.
Example C26_case : never_raises c27_crit /\
  rresult (optimize c27_crit (mkWeight Gaussian false 0) 0 1 []) = Original.
Proof. split; [intros [|k] w'; discriminate | reflexivity]. Qed.

(** C26: an error is raised if both initial criteria are invalid, and only then. *)
Theorem C26_invalid_start : forall crit w lo up m ok1 ok2,
  crit 0%nat (first_weight w lo up) = Answer ok1 (XF DBL_MAX) ->
  crit 1%nat (second_weight w lo up) = Answer ok2 (XF DBL_MAX) ->
  rresult (optimize crit w lo up m) = (if ok1 && ok2 then Thrown else Original).
Proof. exact C26_invalid_main. Qed.
Print Assumptions C26_invalid_start.
Theorem C26_error_only_if_invalid : forall crit w lo up m, never_raises crit ->
  rresult (optimize crit w lo up m) = Thrown ->
  crit 0%nat (first_weight w lo up) = Answer true (XF DBL_MAX) /\
  crit 1%nat (second_weight w lo up) = Answer true (XF DBL_MAX).
Proof. exact C26_throw_main. Qed.
Print Assumptions C26_error_only_if_invalid.

(** C27, on a new selector whose first two evaluations were accepted: the list is
    in ascending order without repetition and holds exactly the valid evaluations.
    Missing: runs that end after the first two evaluations, refuted below. *)
Theorem C27_list_partial : forall crit w lo up, consistent crit -> starts_well crit w lo up ->
  let r := optimize crit w lo up [] in
  strictly_ascending (bandwidth_criterion (rmap r)) /\
  forall x v, In (x, v) (bandwidth_criterion (rmap r)) <->
    exists w', evaluated r w' v /\ wvalue w' = x /\ valid v.
Proof. exact C27_main. Qed.
Print Assumptions C27_list_partial.
Example C27_case : consistent demo_crit /\ starts_well demo_crit (demo_w true) 1 10.
Proof. exact (conj demo_consistent (demo_starts true)). Qed.

(** C27 when the criterion is not a function of the bandwidth or the selector was
    used before: the newest valid value of each bandwidth is listed. *)
Theorem C27_newest_value : forall crit w lo up m, NoDup (map fst m) -> starts_well crit w lo up ->
  let r := optimize crit w lo up m in
  strictly_ascending (bandwidth_criterion (rmap r)) /\
  forall x v, In (x, v) (bandwidth_criterion (rmap r)) <->
    newest x (rlog r) = Some v \/ (newest x (rlog r) = None /\ In (x, v) m).
Proof. exact C27_general_main. Qed.
Print Assumptions C27_newest_value.

(** C27 over any history of searches on one selector: the list is ascending, and
    every entry is a valid evaluation of one of the searches. *)
Theorem C27_history : forall runs, let rm := optimize_many runs [] in
  strictly_ascending (bandwidth_criterion (snd rm)) /\
  forall x v, In (x, v) (bandwidth_criterion (snd rm)) ->
    exists r w', In r (fst rm) /\ evaluated r w' v /\ wvalue w' = x /\ valid v.
Proof. exact C27_history_main. Qed.
Print Assumptions C27_history.

(** C27 is false when the second evaluation is cancelled: the first, valid one is
    not listed. *)
Theorem C27_cancelled_refuted : exists crit w lo up w' v,
  let r := optimize crit w lo up [] in
  evaluated r w' v /\ valid v /\ bandwidth_criterion (rmap r) = [].
Proof. exact C27_refuted_main. Qed.
Print Assumptions C27_cancelled_refuted.

(** C28, when the search gets past its first two evaluations and the criterion
    never throws: nothing is leaked; at most the returned weight stays allocated. *)
Theorem C28_released_partial : forall crit w lo up m, never_raises crit -> starts_well crit w lo up ->
  leaked (optimize crit w lo up m) = [] /\
  (forall t, In t (rlive (optimize crit w lo up m)) ->
     t = TWopt /\ exists wr, rresult (optimize crit w lo up m) = Fresh wr).
Proof. exact C28_main. Qed.
Print Assumptions C28_released_partial.
Example C28_case : never_raises demo_crit /\ starts_well demo_crit (demo_w false) 1 10.
Proof. exact (conj demo_never (demo_starts false)). Qed.

(** C28 is false on the early exits: every run cancelled in, or invalid after, the
    first two evaluations leaks both temporaries. *)
Theorem C28_early_exit_leaks : forall crit w lo up m ok1 v1 ok2 v2,
  crit 0%nat (first_weight w lo up) = Answer ok1 v1 ->
  crit 1%nat (second_weight w lo up) = Answer ok2 v2 ->
  ok1 && ok2 = false \/ (v1 = XF DBL_MAX /\ v2 = XF DBL_MAX) ->
  leaked (optimize crit w lo up m) = [TW1; TW2].
Proof. exact C28_cancel_main. Qed.
Print Assumptions C28_early_exit_leaks.
Theorem C28_refuted : exists crit w lo up, never_raises crit /\
  rresult (optimize crit w lo up []) = Original /\ leaked (optimize crit w lo up []) = [TW1; TW2].
Proof. exact C28_refuted_main. Qed.
Print Assumptions C28_refuted.
