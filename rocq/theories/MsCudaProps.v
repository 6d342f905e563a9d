(** C158: the CUDA loops of multiscale GWR. *)
From Coq Require Import Reals Bool List Arith.
From Verif Require Import Outcome XReal Sums MsCritModel MsCritSpec MsCudaModel MsCudaSpec MsCudaMain MsCudaCases.
Import ListNotations.
Local Open Scope R_scope.

(** fitVarCoreCuda on the locations lo, ..., hi - 1 in groups of G <= hi - lo (starting at 0 when the hat matrix is wanted), when the first m
    groups are not cancelled and regular: it returns the local coefficients and rows of the hat matrix of all locations if that is all; those of
    the first m groups, and zeros, if it is cancelled then; and throws if the next group has a location without a fit. *)
Theorem C158_fit_partial : forall dinv, device_inverse dinv -> forall n x y w lo hi G, (hi <= n)%nat ->
  forall stop hat m, (0 < G <= hi - lo)%nat -> (hat = true -> lo = 0%nat) ->
  (forall i, (i < m)%nat -> stop i = false) -> (forall e, (lo <= e < hi)%nat -> (e < lo + m * G)%nat -> squares n x w e <> 0) ->
  let run := fit_var_cuda dinv n x y w hat lo hi G stop in
  let done upto flag := exists b s, run = Ok (b, s, flag) /\ (forall k, b k = only lo upto (slope n x y w) k) /\
    (forall k j, s k j = if hat then only lo upto (fun e => hat_row n x w e j) k else 0) in
  ((hi <= lo + m * G)%nat -> done hi false) /\
  ((lo + m * G < hi)%nat -> stop m = true -> done (lo + m * G)%nat true) /\
  ((lo + m * G < hi)%nat -> stop m = false -> (exists e, (lo + m * G <= e < lo + S m * G)%nat /\ (e < hi)%nat /\ squares n x w e = 0) -> run = Throw).
Proof. exact fit_main. Qed.
Print Assumptions C158_fit_partial.
Example C158_fit_case : (0 < 2 <= 3 - 0)%nat /\ (forall e, (0 <= e < 3)%nat -> squares 3 ones2 own_weight e <> 0) /\
  exists b s, fit_var_cuda dinv0 3 ones2 alternating own_weight true 0 3 2 (fun _ => false) = Ok (b, s, false) /\ b 2%nat = - 1 /\ s 2%nat 2%nat = 1.
Proof. exact good_case. Qed.
(** With the hat matrix, a range that starts later always fails: the rows of S are numbered from lo, but S has hi - lo rows. *)
Theorem C158_range_refuted : forall dinv n x y w lo hi G, (0 < G)%nat -> (0 < lo < hi)%nat -> (hi <= n)%nat ->
  fit_var_cuda dinv n x y w true lo hi G (fun _ => false) = Throw.
Proof. exact offset_main. Qed.
Print Assumptions C158_range_refuted.

(** fitVarCoreCVCuda: the same for the regressions without the observation itself, but the last case is not reported. *)
Theorem C158_cv_partial : forall dinv, device_inverse dinv -> forall n x y w lo hi G, (hi <= n)%nat ->
  forall stop m, (0 < G <= hi - lo)%nat ->
  (forall i, (i < m)%nat -> stop i = false) -> (forall e, (lo <= e < hi)%nat -> (e < lo + m * G)%nat -> squares_without n x w e <> 0) ->
  let done upto flag := exists b, cv_cuda dinv n x y w lo hi G stop = Ok (b, flag) /\ (forall k, b k = only lo upto (loo_slope n x y w) k) in
  ((hi <= lo + m * G)%nat -> done hi false) /\
  ((lo + m * G < hi)%nat -> stop m = true -> done (lo + m * G)%nat true) /\
  ((lo + m * G < hi)%nat -> stop m = false -> (exists e, (lo + m * G <= e < lo + S m * G)%nat /\ (e < hi)%nat /\ squares_without n x w e = 0) ->
    done (lo + m * G)%nat false).
Proof. exact cv_main. Qed.
Print Assumptions C158_cv_partial.

(** fitVarCoreSHatCuda: likewise, with the trace of the hat matrix; the sum of its squares is right after whole groups, and counts the end of
    the group before once more after an incomplete one. *)
Theorem C158_shat_partial : forall dinv, device_inverse dinv -> forall n x y w lo hi G, (hi <= n)%nat ->
  forall stop m, (0 < G <= hi - lo)%nat ->
  (forall i, (i < m)%nat -> stop i = false) -> (forall e, (lo <= e < hi)%nat -> (e < lo + m * G)%nat -> squares n x w e <> 0) ->
  let done upto flag := exists b t s, shat_var_cuda dinv n x y w lo hi G stop = Ok (b, t, s, flag) /\ (forall k, b k = only lo upto (slope n x y w) k) /\
    t = sum_from lo upto (fun e => hat_row n x w e e) /\
    ((upto = lo + m * G)%nat -> s = sum_from lo upto (hat_square n x w)) /\
    (forall j, (lo + j * G < upto < lo + S j * G)%nat -> s = sum_from lo upto (hat_square n x w) + sum_from (upto - G) (lo + j * G) (hat_square n x w)) in
  ((hi <= lo + m * G)%nat -> done hi false) /\
  ((lo + m * G < hi)%nat -> stop m = true -> done (lo + m * G)%nat true) /\
  ((lo + m * G < hi)%nat -> stop m = false -> (exists e, (lo + m * G <= e < lo + S m * G)%nat /\ (e < hi)%nat /\ squares n x w e = 0) ->
    done (lo + m * G)%nat false).
Proof. exact shat_main. Qed.
Print Assumptions C158_shat_partial.
Theorem C158_squares_refuted : exists b t s, shat_var_cuda dinv0 3 ones2 ones2 own_weight 0 3 2 (fun _ => false) = Ok (b, t, s, false) /\
  t = 3 /\ s = 4 /\ sum_from 0 3 (hat_square 3 ones2 own_weight) = 3.
Proof. exact stale_main. Qed.
Print Assumptions C158_squares_refuted.

(** The criteria on regular data are those of the serial code. *)
Theorem C158_cv_criterion_partial : forall dinv n x y w G, device_inverse dinv -> (0 < G <= n)%nat ->
  (forall e, (e < n)%nat -> squares_without n x w e <> 0) ->
  cv_criterion dinv n x y w false G (fun _ => false) = Ok (XF (rss n x y (loo_slope n x y w))).
Proof. exact cv_criterion_main. Qed.
Print Assumptions C158_cv_criterion_partial.
Theorem C158_aic_criterion_partial : forall inv1 dinv n x y w G, device_inverse dinv -> inverts inv1 -> (0 < G <= n)%nat ->
  (forall e, (e < n)%nat -> squares n x w e <> 0 /\ inv1 (squares n x w e) <> None) ->
  aic_criterion dinv n x y w false G (fun _ => false) = Ok (aic_base inv1 n x y w false (fun _ => false)).
Proof. exact aic_criterion_main. Qed.
Print Assumptions C158_aic_criterion_partial.
(** A criterion whose loop is cancelled is the largest double. *)
Theorem C158_cancelled_partial : forall dinv n x y w G stop m terminated, device_inverse dinv -> (0 < G <= n)%nat -> (m * G < n)%nat ->
  (forall i, (i < m)%nat -> stop i = false) -> stop m = true ->
  (forall e, (e < m * G)%nat -> squares n x w e <> 0 /\ squares_without n x w e <> 0) ->
  cv_criterion dinv n x y w terminated G stop = Ok (XF DBL_MAX) /\ aic_criterion dinv n x y w terminated G stop = Ok (XF DBL_MAX).
Proof. exact cancelled_main. Qed.
Print Assumptions C158_cancelled_partial.
(** Otherwise they are not: two weights, under the first no observation can be predicted, under the second all can; on the device the first has
    the smaller criterion, in the serial code it is unusable. *)
Theorem C158_criterion_refuted : (forall i, (i < 2)%nat -> squares_without 2 ones2 own_weight i = 0) /\
  (forall i, (i < 2)%nat -> squares_without 2 ones2 all_weight i <> 0) /\
  cv_criterion dinv0 2 ones2 alternating own_weight false 1 (fun _ => false) = Ok (XF 2) /\
  cv_criterion dinv0 2 ones2 alternating all_weight false 1 (fun _ => false) = Ok (XF 8) /\
  cv_base dinv0 2 ones2 alternating own_weight false (fun _ => false) = XF DBL_MAX.
Proof. exact preferred_main. Qed.
Print Assumptions C158_criterion_refuted.

(** Groups larger than the range: fits always fail, and the other two return zeros whatever the data. *)
Theorem C158_large_group_refuted : forall dinv n x y w hat lo hi G stop, device_inverse dinv -> (0 < hi - lo < G)%nat -> stop 0%nat = false ->
  fit_var_cuda dinv n x y w hat lo hi G stop = Throw /\
  (exists b, cv_cuda dinv n x y w lo hi G stop = Ok (b, false) /\ forall k, b k = 0) /\
  (exists b, shat_var_cuda dinv n x y w lo hi G stop = Ok (b, 0, 0, false) /\ forall k, b k = 0).
Proof. exact large_main. Qed.
Print Assumptions C158_large_group_refuted.
(** With a group length of 0 each of them divides by zero. *)
Theorem C158_zero_group_refuted : forall dinv n x y w hat lo hi stop,
  fit_var_cuda dinv n x y w hat lo hi 0 stop = UB /\ cv_cuda dinv n x y w lo hi 0 stop = UB /\ shat_var_cuda dinv n x y w lo hi 0 stop = UB.
Proof. exact zero_main. Qed.
Print Assumptions C158_zero_group_refuted.
(** Every fit leaves an array on the host and one on the device. *)
Theorem C158_leak_refuted : forall calls, info_arrays calls = (fits calls, fits calls).
Proof. exact leak_main. Qed.
Print Assumptions C158_leak_refuted.
Example C158_inverse_case : device_inverse dinv0.
Proof. exact dinv0_ok. Qed.
