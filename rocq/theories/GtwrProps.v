(** Theorems on GTWR (C74-C76, C98).  Vocabulary: GtwrSpec.v, DistSpec.v. *)
From Coq Require Import Reals List.
From Verif Require Import Outcome XReal DistModel DistSpec GtwrModel GtwrSpec GtwrProofs GtwrStop GtwrUpper.
Import ListNotations.
Local Open Scope R_scope.

(** C74: the selection of lambda ends, whatever the criterion returns (cancellation, NaN and
    infinities included): it evaluates between 4 and 104 lambdas, all in [0,1], and returns one
    in [0,1], or the last evaluation has thrown. *)
Theorem C74_lambda_range : forall f,
  (exists lambda log, LambdaAutoSelection f = LChosen lambda log /\ 0 <= lambda <= 1 /\
     (4 <= length log <= 104)%nat /\ Forall (fun l => 0 <= l <= 1) log) \/
  (exists log, LambdaAutoSelection f = LRaised log /\ (1 <= length log <= 104)%nat /\ Forall (fun l => 0 <= l <= 1) log).
Proof. exact lambda_range. Qed.
Print Assumptions C74_lambda_range.
Example C74_case : exists log, LambdaAutoSelection valley = LChosen (/ 2) log /\ In 0 log.
Proof. exact valley_select. Qed.

(** C74: when an evaluation reports a failure, lambda 0 is returned and the loop makes no further evaluation
    ([rev log] lists the evaluated lambdas in order). *)
Theorem C74_failed_evaluation : forall f lambda log k l v, LambdaAutoSelection f = LChosen lambda log ->
  nth_error (rev log) k = Some l -> f k l = Some (false, v) -> lambda = 0 /\ length log = Nat.max 4 (S k).
Proof. exact failed_main. Qed.
Print Assumptions C74_failed_evaluation.
Example C74_failed_case : exists log, LambdaAutoSelection (fun k l => Some (negb (Nat.eqb k 2), XF l)) = LChosen 0 log /\
  length log = 4%nat.
Proof. exact failed_case. Qed.

(** C75 is false: for this criterion an evaluated lambda (0) is better than the returned one. *)
Theorem C75_best_refuted : exists (g : R -> R) lambda log l,
  LambdaAutoSelection (fun _ x => Some (true, XF (g x))) = LChosen lambda log /\ In l log /\ g lambda < g l.
Proof. exact best_refuted. Qed.
Print Assumptions C75_best_refuted.

(** C75, the part that holds: for a strictly unimodal R squared with maximiser [mx], after [k]
    iterations the returned lambda is within phi^k/2 of [mx]; and the loop has made 100 iterations
    (phi^100/2 < 10^-20) or has stopped because the R squared of the ends of the bracket
    differ by less than 10^-12. *)
Theorem C75_unimodal_partial : forall (g : R -> R) mx f,
  0 <= mx <= 1 -> unimodal g mx -> (forall k l, f k l = Some (true, XF (g l))) ->
  exists k lambda log, LambdaAutoSelection f = LChosen lambda log /\ length log = (4 + k)%nat /\ (k <= 100)%nat /\
    Rabs (lambda - mx) <= phi ^ k / 2 /\
    (k = 100%nat \/ Rabs (g (lambda - phi ^ k / 2) - g (lambda + phi ^ k / 2)) < / 10 ^ 12).
Proof. exact unimodal_select. Qed.
Print Assumptions C75_unimodal_partial.
Example C75_case : unimodal (fun l => 1 - (l - / 3) * (l - / 3)) (/ 3).
Proof. exact peak_unimodal. Qed.
(** C75: what 100 iterations guarantee. *)
Theorem C75_precision : phi ^ 100 / 2 < / 10 ^ 20.
Proof. exact phi100. Qed.
Print Assumptions C75_precision.

(** C76 is false: predict uses the locations only for their number ... *)
Theorem C76_only_count : forall B weight (regress : list xd -> outcome B) d cs ts locs locs',
  m_rows locs = m_rows locs' ->
  gtwr_predict B weight regress d cs ts locs = gtwr_predict B weight regress d cs ts locs'.
Proof. exact predict_ignores. Qed.
Print Assumptions C76_only_count.
(** ... so that a requested location can get the coefficients of another one ... *)
Theorem C76_requested_refuted : exists B weight (regress : list xd -> outcome B) lambda cs ts locs r,
  length cs = length ts /\ length locs = length ts /\
  gtwr_predict B weight regress (st_new (crs_new false) onedim_new lambda) (coords cs) ts (coords locs) = Ok r /\
  ~ exists c, nth_error r 0 = Some c /\ calibrated weight regress lambda cs ts locs 0 (Ok c).
Proof. exact requested_refuted. Qed.
Print Assumptions C76_requested_refuted.
(** ... and more locations than observations make it throw. *)
Theorem C76_more_throws : forall B weight (regress : list xd -> outcome B) d cs ts locs,
  (forall w, regress w <> UB) -> (m_rows cs < m_rows locs)%nat ->
  gtwr_predict B weight regress d cs ts locs = Throw.
Proof. exact predict_more. Qed.
Print Assumptions C76_more_throws.

(** C76, the part that holds: prediction at the observations themselves. *)
Theorem C76_own_partial : forall B weight (regress : list xd -> outcome B) lambda cs ts r,
  length cs = length ts ->
  gtwr_predict B weight regress (st_new (crs_new false) onedim_new lambda) (coords cs) ts (coords cs) = Ok r ->
  length r = length cs /\
  forall i c, nth_error r i = Some c -> calibrated weight regress lambda cs ts cs i (Ok c).
Proof. exact predict_own. Qed.
Print Assumptions C76_own_partial.

(** C98 is false: with two different times (and lambda not within 10^-16 of 1) the upper end of the
    fixed-bandwidth search is at least 10^13, the marker of observations in the future, however
    close the observations are. *)
Theorem C98_upper_refuted : forall lambda pts ts i j ti tj, 0 <= lambda -> lambda <= 1 - / 10 ^ 16 ->
  length pts = length ts -> nth_error ts i = Some ti -> nth_error ts j = Some tj -> ti < tj ->
  exists u r, gtwr_upper (spacetime lambda pts pts ts ts) = Ok u /\ xval u = Some r /\ 10 ^ 13 <= r.
Proof. exact upper_huge. Qed.
Print Assumptions C98_upper_refuted.
Example C98_case : exists u r, gtwr_upper (spacetime (/ 2) [(0, 0); (1, 0)] [(0, 0); (1, 0)] [0; 1] [0; 1]) = Ok u /\
  xval u = Some r /\ 10 ^ 13 <= r.
Proof. exact upper_case. Qed.

(** C98, what the upper end is: the largest space-time distance from an observation to an observation
    (the marker 10^13 of observations in the future included), and it is one of them. *)
Theorem C98_upper_exact : forall lambda pts ts, 0 <= lambda <= 1 -> lambda = 1 \/ lambda <= 1 - / 10 ^ 16 ->
  length pts = length ts -> pts <> [] ->
  exists u r, gtwr_upper (spacetime lambda pts pts ts ts) = Ok u /\ xval u = Some r /\
    (forall f i v, entry (st_distance (spacetime lambda pts pts ts ts) f) i v -> v <= r) /\
    (exists f i, (f < length pts)%nat /\ (i < length pts)%nat /\ entry (st_distance (spacetime lambda pts pts ts ts) f) i r).
Proof. exact upper_exact. Qed.
Print Assumptions C98_upper_exact.

(** C98, in part: when all observations have the same time, the upper end is lambda times the largest distance between
    two observations.  (With different times it is not: C98_upper_refuted.) *)
Theorem C98_upper_partial : forall lambda pts ts, 0 <= lambda <= 1 -> lambda = 1 \/ lambda <= 1 - / 10 ^ 16 ->
  length pts = length ts -> forall t, pts <> [] -> (forall s, In s ts -> s = t) ->
  exists u r, gtwr_upper (spacetime lambda pts pts ts ts) = Ok u /\ xval u = Some r /\
    (forall o p, In o pts -> In p pts -> lambda * euclid o p <= r) /\
    (exists o p, In o pts /\ In p pts /\ r = lambda * euclid o p).
Proof. exact upper_contemporary. Qed.
Print Assumptions C98_upper_partial.
Example C98_same_time_case : exists u, gtwr_upper (spacetime (/ 2) [(0, 0); (3, 4)] [(0, 0); (3, 4)] [7; 7] [7; 7]) = Ok u /\
  xval u = Some (5 / 2).
Proof. exact upper_same_time. Qed.
