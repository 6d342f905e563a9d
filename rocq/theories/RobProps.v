(** Property theorems C68, C69, C92: robust GWR.  Vocabulary: GlmSpec.v (numbers). *)
From Coq Require Import Reals Bool List Arith Lia Lra.
From Verif Require Import Outcome XReal Sums GlmModel GlmSpec RobModel RobProofs RobCases RobValues.
Import ListNotations.
Local Open Scope R_scope.

(** C68: the filter weight is a function g of |residual| / sqrt(mse); g stays in [0,1], is 1
    up to 2, 0 from 3 on (and only there) and (1 - (r - 2)^2)^2 between, never increases and is
    continuous. *)
Theorem C68_filter_weights : exists g : R -> R,
  (forall n e es mse m, numbers n e es -> xval mse = Some m -> 0 < m ->
     numbers n (filtWeight e mse) (fun i => g (Rabs (es i) / sqrt m))) /\
  (forall r, 0 <= g r <= 1) /\ (forall r, r <= 2 -> g r = 1) /\ (forall r, 3 <= r -> g r = 0) /\
  (forall r, r < 3 -> 0 < g r) /\
  (forall r s, r <= s -> g s <= g r) /\ continuity g /\ (forall r, 2 <= r <= 3 -> g r = (1 - (r - 2) ^ 2) ^ 2).
Proof. exact C68_main. Qed.
Print Assumptions C68_filter_weights.
Example C68_case : numbers 3 (fun i => XF (INR i)) INR /\ xval (mean_square 3 (fun i => XF (INR i))) = Some (5 / 3).
Proof. exact ex_residuals. Qed.

(** C69: the iterative calibration makes between 1 and 21 fits and returns the last of them
    (zeros if cancelled). *)
Theorem C69_iterative : forall A n fit resid stud stop (zero : A) r, calibrate A n fit resid stud stop zero false = Ok r ->
  (1 <= length (snd r) <= 21)%nat /\
  exists b', fit (last (snd r) ones_mask) = Ok b' /\ (fst r = b' \/ fst r = zero) /\
  ((forall i, stop i = false) -> fst r = b').
Proof. exact (fun A n fit resid _ => C69_second_main A n fit resid). Qed.
Print Assumptions C69_iterative.
(** Fit k + 1 uses the filter weights of the residuals of fit k; the second fit is always made;
    a later one is made exactly when the mean square changed by more than 1/100000 of itself and
    fewer than 21 fits were made, unless cancelled.  bs are the fits made. *)
Theorem C69_rounds : forall A n fit resid stud stop (zero : A) r, calibrate A n fit resid stud stop zero false = Ok r ->
  exists (bs : nat -> A) (last : nat),
    let weights k := filtWeight (resid (bs k)) (mean_square n (resid (bs k))) in
    let mse k := mean_square n (resid (bs k)) in
    let moved k := xltb (XF (1 / 100000)) (xdiv (xabs (xsub (mse k) (mse (S k)))) (mse (S k))) in
    length (snd r) = S last /\
    snd r = (fun _ => XF 1) :: map weights (seq 0 last) /\
    fit (fun _ => XF 1) = Ok (bs 0%nat) /\
    (forall k, (k < last)%nat -> fit (weights k) = Ok (bs (S k)) /\ stop k = false) /\
    (forall k, (S k < last)%nat -> moved k = true) /\
    fst r = (if stop last then match last with O => bs 0%nat | S _ => zero end else bs last) /\
    (stop last = false -> exists k, last = S k /\ ((last < 20)%nat -> moved k = false)).
Proof. exact (fun A n fit resid _ => C69_rounds_main A n fit resid). Qed.
Print Assumptions C69_rounds.
Theorem C69_mean_square : forall n e es, (0 < n)%nat -> numbers n e es ->
  xval (mean_square n e) = Some (bigsum n (fun i => es i * es i) / INR n).
Proof. exact mean_square_val. Qed.
Print Assumptions C69_mean_square.
(** A cancelled filtered calibration returns zeros. *)
Theorem C69_filtered_cancelled : forall A n fit resid stud stop (zero : A) r, stop 0%nat || stop 1%nat = true ->
  calibrate A n fit resid stud stop zero true = Ok r -> fst r = zero.
Proof. exact (fun A _ fit _ => C69_cancel_main A fit). Qed.
Print Assumptions C69_filtered_cancelled.
(** The filtered calibration makes exactly two: one with all observations, one without those whose
    studentised residual exceeds 3. *)
Theorem C69_filtered : forall A n fit resid stud stop (zero : A) r, (forall i, stop i = false) ->
  calibrate A n fit resid stud stop zero true = Ok r ->
  exists b m, fit (fun _ => XF 1) = Ok b /\ snd r = [fun _ => XF 1; m] /\ fit m = Ok (fst r) /\
  forall i, (m i = XF 0 /\ xltb (XF 3) (xabs (stud b i)) = true) \/ (m i = XF 1 /\ xltb (XF 3) (xabs (stud b i)) = false).
Proof. exact (fun A _ fit _ => C69_first_main A fit). Qed.
Print Assumptions C69_filtered.
(** A perfect fit, where studentised residuals are 0/0, keeps all observations. *)
Theorem C69_filtered_perfect_fit : forall A n fit resid stud stop (zero : A) b, (forall i, stop i = false) ->
  fit (fun _ => XF 1) = Ok b -> (forall i, stud b i = XN) ->
  (forall m m', (forall i, m i = m' i) -> fit m = fit m') ->
  exists ms, calibrate A n fit resid stud stop zero true = Ok (b, ms).
Proof. exact (fun A _ fit _ => C69_filtered_perfect A fit). Qed.
Print Assumptions C69_filtered_perfect_fit.
(** C69 refuted for a perfect fit of the iterative calibration: all weights become 0 (0/0 compares
    false) and the next fit fails (C69_zero_mask_throws), so the calibration throws. *)
Theorem C69_perfect_fit_refuted : forall A n fit resid stud stop (zero : A) b, (0 < n)%nat ->
  fit (fun _ => XF 1) = Ok b -> numbers n (resid b) (fun _ => 0) ->
  (forall m, (forall i, (i < n)%nat -> m i = XF 0) -> fit m = Throw) -> stop 0%nat = false ->
  calibrate A n fit resid stud stop zero false = Throw.
Proof. exact (fun A n fit resid _ => C69_perfect_main A n fit resid). Qed.
Print Assumptions C69_perfect_fit_refuted.
Example C69_case : (exists r, cali_second nat 2 ex_fit ex_resid (fun _ => false) 0%nat = Ok r /\ length (snd r) = 2%nat) /\
  (exists r, cali_first nat ex_fit ex_resid (fun _ => false) 0%nat = Ok r) /\
  ex_pfit (fun _ => XF 1) = Ok tt /\ ex_pfit (fun _ => XF 0) = Throw /\
  (forall m, (forall i, (i < 3)%nat -> m i = XF 0) -> ex_pfit m = Throw).
Proof. exact ex_robust_runs. Qed.

(** C92: with weights from its own mean squared residual, the filter discards at most a ninth of
    the observations and reduces at most a quarter; in particular not all. *)
Theorem C92_few_discarded : forall n e es, (0 < n)%nat -> numbers n e es -> (exists i, (i < n)%nat /\ es i <> 0) ->
  let w := filtWeight e (mean_square n e) in
  exists ws, numbers n w ws /\
  forall discarded reduced, NoDup discarded -> (forall i, In i discarded -> (i < n)%nat /\ ws i = 0) ->
    NoDup reduced -> (forall i, In i reduced -> (i < n)%nat /\ ws i < 1) ->
    (9 * length discarded <= n /\ 4 * length reduced <= n)%nat.
Proof. exact C92_main. Qed.
Print Assumptions C92_few_discarded.
Example C92_case : numbers 3 (fun i => XF (INR i)) INR /\ exists i, (i < 3)%nat /\ INR i <> 0.
Proof. split; [intros i L; reflexivity|]. exists 1%nat. split; [lia|simpl; lra]. Qed.
