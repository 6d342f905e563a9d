(** C131-C134: bandwidth criteria of one variable of multiscale GWR, and its diagnostics. *)
From Coq Require Import Reals Bool List Arith Lra Lia.
From Verif Require Import Outcome XReal XRealFacts Sums DiagModel OmpModel OmpSpec OmpProofs MpiModel
  MsCritModel MsCritSpec MsCritProofs MsCritCases.
Local Open Scope R_scope.

(** ** C131 *)
(** The cross-validation score is the sum of the squared errors of the predictions of each observation from the
    regression without it. *)
Theorem C131_cv : forall inv1 n x y w, inverts inv1 ->
  (forall i, (i < n)%nat -> inv1 (sum_without n i (fun j => w i j * x j ^ 2)) <> None) ->
  cv_base inv1 n x y w false (fun _ => false) = XF (rss n x y (loo_slope n x y w)).
Proof. exact C131_cv_main. Qed.
Print Assumptions C131_cv.
(** ... and those regressions are the weighted least squares fits to the other observations. *)
Theorem C131_loo_minimises : forall n x y w i, (forall j, (j < n)%nat -> 0 <= w i j) ->
  sum_without n i (fun j => w i j * x j ^ 2) <> 0 ->
  forall b, sum_without n i (fun j => w i j * (y j - x j * loo_slope n x y w i) ^ 2) <=
            sum_without n i (fun j => w i j * (y j - x j * b) ^ 2).
Proof. exact loo_slope_min. Qed.
Print Assumptions C131_loo_minimises.
(** The AICc is n ln(RSS/n) + n ln(2 pi) + n (n + tr S) / (n - 2 - tr S). *)
Theorem C131_aic : forall inv1 n x y w, inverts inv1 ->
  (forall i, (i < n)%nat -> inv1 (bigsum n (fun j => w i j * x j ^ 2)) <> None) ->
  (0 < n)%nat -> 0 < rss n x y (slope n x y w) -> INR n - 2 - hat_trace n x w <> 0 ->
  xval (aic_base inv1 n x y w false (fun _ => false)) =
  Some (INR n * ln (rss n x y (slope n x y w) / INR n) + INR n * ln (2 * PI)
        + INR n * ((INR n + hat_trace n x w) / (INR n - 2 - hat_trace n x w))).
Proof. exact C131_aic_main. Qed.
Print Assumptions C131_aic.
(** A perfect fit and a zero denominator count as unusable. *)
Theorem C131_aic_not_finite : forall inv1 n x y w, inverts inv1 ->
  (forall i, (i < n)%nat -> inv1 (bigsum n (fun j => w i j * x j ^ 2)) <> None) ->
  (0 < n)%nat -> rss n x y (slope n x y w) = 0 \/ INR n - 2 - hat_trace n x w = 0 ->
  aic_base inv1 n x y w false (fun _ => false) = XF DBL_MAX.
Proof. exact MsCritProofs.C131_aic_not_finite. Qed.
Print Assumptions C131_aic_not_finite.
(** Unusable: cancelled before or in the loop, or some local regression cannot be computed. *)
Theorem C131_cv_unusable : forall inv1 n x y w terminated stop,
  (terminated = true \/ exists i, (i < n)%nat /\
     (stop i = true \/ inv1 (sum_without n i (fun j => w i j * x j ^ 2)) = None)) ->
  cv_base inv1 n x y w terminated stop = XF DBL_MAX.
Proof. exact C131_cv_unusable_main. Qed.
Print Assumptions C131_cv_unusable.
Theorem C131_aic_unusable : forall inv1 n x y w terminated stop,
  (terminated = true \/ exists i, (i < n)%nat /\
     (stop i = true \/ inv1 (bigsum n (fun j => w i j * x j ^ 2)) = None)) ->
  aic_base inv1 n x y w terminated stop = XF DBL_MAX.
Proof. exact C131_aic_unusable_main. Qed.
Print Assumptions C131_aic_unusable.
(** So a bandwidth that reproduces the response exactly is the worst of all: another one, which does not, is preferred. *)
Theorem C131_perfect_fit_refuted : exists inv1 n x y w w' v, inverts inv1 /\
  (forall i, (i < n)%nat -> y i = x i * slope n x y w i) /\ INR n - 2 - hat_trace n x w <> 0 /\
  (forall i, (i < n)%nat -> inv1 (bigsum n (fun j => w i j * x j ^ 2)) <> None) /\
  aic_base inv1 n x y w false (fun _ => false) = XF DBL_MAX /\
  xval (aic_base inv1 n x y w' false (fun _ => false)) = Some v /\ v < DBL_MAX.
Proof. exact C131_perfect_witness. Qed.
Print Assumptions C131_perfect_fit_refuted.

(** ** C132 *)
(** OpenMP: if no location fails, every schedule gives the serial value. *)
Theorem C132_omp_partial : forall inv1 n x y w threads sched, schedule threads 0 n sched ->
  ((forall i, (i < n)%nat -> inv1 (sum_without n i (fun j => w i j * x j ^ 2)) <> None) ->
   cv_omp inv1 n x y w threads sched = Some (cv_base inv1 n x y w false (fun _ => false))) /\
  ((forall i, (i < n)%nat -> inv1 (bigsum n (fun j => w i j * x j ^ 2)) <> None) ->
   aic_omp inv1 n x y w threads sched = Some (aic_base inv1 n x y w false (fun _ => false))).
Proof. exact (fun inv1 n x y w threads sched S =>
  conj (C132_cv_omp_main inv1 n x y w threads sched S) (C132_aic_omp_main inv1 n x y w threads sched S)). Qed.
Print Assumptions C132_omp_partial.
(** If one fails, the OpenMP value can be an ordinary number where the serial one says unusable. *)
Theorem C132_omp_refuted : exists inv1 n x y w threads sched v,
  inverts inv1 /\ schedule threads 0 n sched /\ v < DBL_MAX /\
  cv_omp inv1 n x y w threads sched = Some (XF v) /\
  cv_base inv1 n x y w false (fun _ => false) = XF DBL_MAX.
Proof. exact C132_omp_witness. Qed.
Print Assumptions C132_omp_refuted.
(** MPI with two processes or more: negative slopes are replaced by 0 before the residuals are taken. *)
Theorem C132_mpi_partial : forall inv1 n x y w, inverts inv1 ->
  forall workers size, range_size n workers = Ok size -> (2 <= workers)%nat ->
  ((forall i, (i < n)%nat -> inv1 (sum_without n i (fun j => w i j * x j ^ 2)) <> None) ->
   cv_mpi inv1 n x y w workers = Ok (XF (rss n x y (fun i => Rmax (loo_slope n x y w i) 0)))) /\
  ((forall i, (i < n)%nat -> inv1 (bigsum n (fun j => w i j * x j ^ 2)) <> None) -> (0 < n)%nat ->
   let r := rss n x y (fun i => Rmax (slope n x y w i) 0) in
   0 < r -> INR n - 2 - hat_trace n x w <> 0 ->
   exists v, aic_mpi inv1 n x y w workers = Ok v /\
     xval v = Some (INR n * ln (r / INR n) + INR n * ln (2 * PI)
                    + INR n * ((INR n + hat_trace n x w) / (INR n - 2 - hat_trace n x w)))).
Proof. exact (fun inv1 n x y w C workers size S W =>
  conj (C132_cv_mpi_main inv1 n x y w C workers size S W) (C132_aic_mpi_main inv1 n x y w C workers size S W)). Qed.
Print Assumptions C132_mpi_partial.
(** With one process the value is the serial one. *)
Theorem C132_mpi_one : forall inv1 n x y w, inverts inv1 ->
  forall workers size, range_size n workers = Ok size -> workers = 1%nat ->
  (forall i, (i < n)%nat -> inv1 (sum_without n i (fun j => w i j * x j ^ 2)) <> None) ->
  cv_mpi inv1 n x y w workers = Ok (cv_base inv1 n x y w false (fun _ => false)).
Proof. exact C132_cv_mpi_one. Qed.
Print Assumptions C132_mpi_one.
(** A failing location makes the value unusable whichever process meets it. *)
Theorem C132_mpi_fails : forall inv1 n x y w workers size, range_size n workers = Ok size ->
  (exists i, (i < n)%nat /\ inv1 (sum_without n i (fun j => w i j * x j ^ 2)) = None) ->
  cv_mpi inv1 n x y w workers = Ok (XF DBL_MAX).
Proof. exact C132_mpi_fails_main. Qed.
Print Assumptions C132_mpi_fails.
(** With negative slopes the MPI score differs from the serial one. *)
Theorem C132_mpi_refuted : exists inv1 n x y w workers v v',
  inverts inv1 /\ cv_mpi inv1 n x y w workers = Ok (XF v) /\
  cv_base inv1 n x y w false (fun _ => false) = XF v' /\ v' < v < DBL_MAX.
Proof. exact C132_mpi_witness. Qed.
Print Assumptions C132_mpi_refuted.

(** ** C133 *)
(** As long as fewer than n - 2 parameters are effective, a larger residual sum of squares or more parameters make the
    AICc worse. *)
Theorem C133_penalty_partial : forall inv1 n x x' y y' w w', inverts inv1 ->
  (forall i, (i < n)%nat -> inv1 (bigsum n (fun j => w i j * x j ^ 2)) <> None) ->
  (forall i, (i < n)%nat -> inv1 (bigsum n (fun j => w' i j * x' j ^ 2)) <> None) -> (2 <= n)%nat ->
  let r := rss n x y (slope n x y w) in let r' := rss n x' y' (slope n x' y' w') in
  0 < r <= r' -> 0 <= hat_trace n x w <= hat_trace n x' w' -> hat_trace n x' w' < INR n - 2 ->
  exists v v', xval (aic_base inv1 n x y w false (fun _ => false)) = Some v /\
    xval (aic_base inv1 n x' y' w' false (fun _ => false)) = Some v' /\ v <= v' /\
    (r < r' \/ hat_trace n x w < hat_trace n x' w' -> v < v').
Proof. exact C133_main. Qed.
Print Assumptions C133_penalty_partial.
(** Beyond that the penalty turns into a reward: a fit with more than n - 2 effective parameters is preferred to one with
    a single parameter. *)
Theorem C133_too_local_refuted : exists inv1 n x y w w' v v', inverts inv1 /\
  INR n - 2 < hat_trace n x w /\ hat_trace n x w' = 1 /\
  xval (aic_base inv1 n x y w false (fun _ => false)) = Some v /\
  xval (aic_base inv1 n x y w' false (fun _ => false)) = Some v' /\ v < v'.
Proof. exact C133_witness. Qed.
Print Assumptions C133_too_local_refuted.

(** ** C134 *)
(** Diagnostics from the hat matrix S. *)
Theorem C134_values_partial : forall n y S r, let d := ms_diag true n y S r in
  let tr := bigsum n (fun i => S i i) in let fro := bigsum n (fun i => bigsum n (fun k => S i k ^ 2)) in
  d_RSS d = r /\ d_ENP d = 2 * tr - fro /\ d_EDF d = INR n - d_ENP d /\
  ((0 < n)%nat -> 0 < r -> INR n - 2 - tr <> 0 ->
   xval (d_AICc d) = Some (INR n * ln (r / INR n) + INR n * ln (2 * PI) + INR n * ((INR n + tr) / (INR n - 2 - tr)))) /\
  (let tss := bigsum n (fun i => (y i - bigsum n y / INR n) ^ 2) in tss <> 0 ->
   xval (d_R2 d) = Some (1 - r / tss) /\
   (d_EDF d <> 1 -> xval (d_R2adj d) = Some (1 - r / tss * (INR n - 1) / (d_EDF d - 1)))).
Proof. exact C134_main. Qed.
Print Assumptions C134_values_partial.
(** The AIC is never given a value, and without the hat matrix no parameter is counted. *)
Theorem C134_aic_refuted : exists hat n y S r, d_AIC (ms_diag hat n y S r) = None.
Proof. exact (ex_intro _ true (ex_intro _ 2%nat (ex_intro _ ly (ex_intro _ one (ex_intro _ 1 eq_refl))))). Qed.
Print Assumptions C134_aic_refuted.
Theorem C134_without_hat : forall n y S r, let d := ms_diag false n y S r in
  d_ENP d = 0 /\ d_EDF d = INR n.
Proof. exact C134_no_hat. Qed.
Print Assumptions C134_without_hat.
Theorem C134_no_hat_refuted : exists n y S r,
  d_ENP (ms_diag true n y S r) <> d_ENP (ms_diag false n y S r).
Proof. exact C134_hat_matters. Qed.
Print Assumptions C134_no_hat_refuted.

(** ** The hypotheses can be met: four observations, unit weights. *)
Example MsCrit_example : inverts real_inv /\
  (forall i, (i < 4)%nat -> real_inv (sum_without 4 i (fun j => one i j * 1 ^ 2)) <> None) /\
  (forall i, (i < 4)%nat -> real_inv (bigsum 4 (fun j => one i j * 1 ^ 2)) <> None) /\
  0 < rss 4 (fun _ => 1) ly (slope 4 (fun _ => 1) ly one) /\ 0 <= hat_trace 4 (fun _ => 1) one < INR 4 - 2 /\
  range_size 4 2 = Ok 2%nat /\ schedule 2 0 2 overlap.
Proof. exact MsCrit_case. Qed.
