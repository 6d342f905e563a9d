(** Theorems on the weights and the bandwidth optimisation of GWDR (C77, C78, C99-C101).
    Vocabulary: GwdrSpec.v, KernelSpec.v. *)
From Coq Require Import Reals Bool List ZArith Permutation.
From Verif Require Import Outcome XReal KernelModel KernelSpec GwdrModel GwdrSpec GwdrProofs GtwrStop.
Import ListNotations.
Local Open Scope R_scope.

(** C77: with usable bandwidths there is one weight per observation, all in [0,1], 1 for the
    observation itself, the same for every order of the dimensions; an observation that is at least
    as far in every dimension has at most the weight. *)
Theorem C77_weights : forall n ms i, (i < n)%nat -> Forall (dim_ok n i) ms ->
  exists rs, returns_values (gwdr_weight n ms i) rs /\ length rs = n /\
    Forall (fun w => 0 <= w <= 1) rs /\ nth_error rs i = Some 1 /\
    (forall ms', Permutation ms ms' -> returns_values (gwdr_weight n ms' i) rs) /\
    (forall j k wj wk, nth_error rs j = Some wj -> nth_error rs k = Some wk ->
       (forall m, In m ms -> nth j (gaps m i) 0 <= nth k (gaps m i) 0) -> wk <= wj).
Proof. exact weights_main. Qed.
Print Assumptions C77_weights.
(** C77: they are the products of the kernel weights of the dimensions. *)
Theorem C77_product : forall n i ms, (i < n)%nat -> Forall (dim_ok n i) ms ->
  exists hs, Forall2 (dim_bandwidth i) ms hs /\
    returns_values (gwdr_weight n ms i) (map (product_weight ms hs i) (seq 0 n)).
Proof. exact product_main. Qed.
Print Assumptions C77_product.
Example C77_case : Forall (dim_ok 3 0) [mkDim Bisquare false (XF 5) [0; 1; 2]; mkDim Gaussian true (XF 2) [4; 1; 2]].
Proof. exact dims_case. Qed.

(** C78: if the minimiser evaluates its start point first, the first evaluated bandwidths are those it
    was started with for adaptive bandwidths, but the bandwidth times the number of
    observations for fixed ones. *)
Theorem C78_first_partial : forall g n maxIter ms o, (0 < n)%nat -> optimize g n maxIter ms = Some o ->
  starts_at g (map (target n) ms) -> (forall m, In m ms -> 0 <= snd m) ->
  exists b more, o_log o = b :: more /\
    b = map (fun m => if fst m : bool then snd m else snd m * INR n) ms.
Proof. exact first_main. Qed.
Print Assumptions C78_first_partial.
(** C78 is false for fixed bandwidths. *)
Theorem C78_fixed_refuted : exists g n ms o b more, (0 < n)%nat /\ starts_at g (map (target n) ms) /\
  (forall m, In m ms -> 0 <= snd m) /\ optimize g n 10 ms = Some o /\ o_log o = b :: more /\ b <> map snd ms.
Proof. exact first_refuted. Qed.
Print Assumptions C78_fixed_refuted.
(** C78: every evaluated bandwidth is non-negative. *)
Theorem C78_nonnegative : forall g n maxIter ms o bs,
  optimize g n maxIter ms = Some o -> In bs (o_log o) -> Forall (fun b => 0 <= b) bs.
Proof. exact nonneg_main. Qed.
Print Assumptions C78_nonnegative.
(** C78: fit hands the user's bandwidth to the optimiser only if it lies strictly inside the range. *)
Theorem C78_start : forall lower upper b,
  (lower < b < upper -> start_bandwidth lower upper b = b) /\
  (b <= lower \/ upper <= b -> start_bandwidth lower upper b = upper * (618 / 1000)).
Proof. exact start_main. Qed.
Print Assumptions C78_start.

(** C99: the bandwidths used for the fit are within one half of the evaluated ones ... *)
Theorem C99_rounded_partial : forall g n maxIter ms o,
  optimize g n maxIter ms = Some o -> best_seen g -> o_code o = 0%Z ->
  exists x, In x (o_log o) /\
   Forall2 (fun used seen => Rabs (used - seen) <= / 2 /\ 0 <= used /\ exists z, used = IZR z) (o_bws o) x.
Proof. exact final_main. Qed.
Print Assumptions C99_rounded_partial.
(** ... but not among them: a fixed bandwidth of 0.1 becomes 0. *)
Theorem C99_used_refuted : exists g n ms o, starts_at g (map (target n) ms) /\ best_seen g /\
  optimize g n 10 ms = Some o /\ fit_bandwidths g n 10 ms false = Ok (Some [0]) /\
  ~ In [0] (o_log o) /\ In [/ 10] (o_log o).
Proof. exact used_refuted. Qed.
Print Assumptions C99_used_refuted.

(** C100: unless told to stop, fit goes on exactly if the size test succeeds within the allowed
    number of iterations; otherwise it throws ... *)
Theorem C100_limit : forall g n maxIter ms, g_status g 0 = 0%Z -> (forall k, g_stopped g k = false) ->
  (fit_bandwidths g n maxIter ms false <> Throw <->
   exists k, (1 <= k <= Nat.max 1 maxIter)%nat /\ g_test g k = 0%Z /\ (forall j, (1 <= j < k)%nat -> g_test g j = (-2)%Z)).
Proof. exact limit_main. Qed.
Print Assumptions C100_limit.
(** ... although no call of the minimiser has failed and the bandwidths have been found. *)
Theorem C100_limit_refuted : forall n ms, exists g,
  g_status g 0 = 0%Z /\ (forall k, g_status g k = 0%Z) /\ (forall k, g_stopped g k = false) /\
  fit_bandwidths g n 500 ms false = Throw.
Proof. exact limit_case. Qed.
Print Assumptions C100_limit_refuted.
(** C100: the optimiser ends. *)
Theorem C100_ends : forall g n maxIter ms, exists o, optimize g n maxIter ms = Some o.
Proof. exact optimize_total. Qed.
Print Assumptions C100_ends.

(** C100: when the minimiser cannot be set up, fit throws; the bandwidths are left at those evaluated last, or as
    they were if none was evaluated. *)
Theorem C100_setup_failed : forall g n maxIter ms, g_status g 0 <> 0%Z -> exists o,
  optimize g n maxIter ms = Some o /\ o_code o = g_status g 0 /\
  (g_points g 0 = [] -> o_bws o = map snd ms) /\
  (forall pts x, g_points g 0 = pts ++ [x] -> o_bws o = map (fun t => Rabs t * INR n) x) /\
  fit_bandwidths g n maxIter ms false = Throw.
Proof. exact setup_main. Qed.
Print Assumptions C100_setup_failed.
Example C100_setup_case : exists g, g_status g 0 <> 0%Z /\ exists o, optimize g 10 5 [(true, 3)] = Some o /\ o_bws o = [5].
Proof. exact setup_case. Qed.

(** C101 is false: predict returns zeros. *)
Theorem C101_predict_refuted : forall locations cols row,
  length (gwdr_predict locations cols) = locations /\
  (In row (gwdr_predict locations cols) -> Forall (fun b => b = 0) row).
Proof. exact predict_zero. Qed.
Print Assumptions C101_predict_refuted.
Example C101_case : gwdr_predict 2 1 = [[0]; [0]].
Proof. reflexivity. Qed.
