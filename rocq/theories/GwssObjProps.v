(** C168: a summary statistics object over several calls. *)
From Coq Require Import Reals Bool List Arith Lia Lra Permutation.
From Verif Require Import Outcome XReal Sums GwssModel GwssSpec GwssCases GwssObjModel GwssObjSpec GwssObjProofs GwssObjMain GwssObjCorr GwssObjCases GwssObjStale.
Import ListNotations.
Local Open Scope R_scope.

(** The function called by run belongs to the mode and the parallel type, whatever was set before. *)
Theorem C168_calculator sort_index o : reachable sort_index o ->
  (o_par o = OpenMP -> o_mode o = Average -> o_calc o = GWAverageOmp) /\
  (o_par o = OpenMP -> o_mode o = Correlation -> o_calc o = GWCorrelationOmp) /\
  (o_par o <> OpenMP -> o_mode o = Average -> o_calc o = GWAverageSerial) /\
  (o_par o <> OpenMP -> o_mode o = Correlation -> o_calc o = GWCorrelationSerial) /\
  In (o_par o) [SerialOnly; OpenMP; MPI_Serial; MPI_MP].
Proof. exact (calculator_main sort_index o). Qed.
Print Assumptions C168_calculator.
Example C168_calculator_case : let o := assign (SetParallel CUDA) (assign (SetParallel OpenMP) (assign (SetMode Correlation) (create some_data 3 (fun _ _ => 1)))) in
  reachable isort_index o /\ o_calc o = GWCorrelationOmp.
Proof. split; [repeat constructor|reflexivity]. Qed.

(** A run for averages: what it returns at the locations reached and at the others, and what it leaves as it was. *)
Theorem C168_average sort_index (SI : sorts_indices sort_index) o stop order :
  reachable sort_index o -> o_mode o = Average -> o_locs o = d_rows (o_data o) -> Permutation order (seq 0 (o_locs o)) ->
  (forall i, (i < o_locs o)%nat -> worked (o_par o) stop i -> proper_weights (o_locs o) (o_weight o i)) ->
  (o_quantile o = true -> forall i j, (i < o_locs o)%nat -> worked (o_par o) stop i -> (j < d_vars (o_data o))%nat ->
     light (o_locs o) (o_weight o i) (d_x (o_data o) j)) ->
  let n := o_locs o in let c := d_vars (o_data o) in
  exists o', run sort_index stop false order o = Returns o' /\ same_settings o o' /\
    (o_term o' = true <-> o_term o = true \/ exists i, (i < n)%nat /\ stop i = true) /\
    (shape (s_mean (o_stats o')) n c /\ shape (s_var (o_stats o')) n c /\ shape (s_sd (o_stats o')) n c /\
     shape (s_skew (o_stats o')) n c /\ shape (s_cv (o_stats o')) n c) /\
    (forall i j, (i < n)%nat -> (j < c)%nat ->
       (worked (o_par o) stop i -> averages n (o_weight o i) (d_x (o_data o) j) (o_stats o') i j) /\
       (~ worked (o_par o) stop i -> has (s_mean (o_stats o')) i j 0 /\ has (s_var (o_stats o')) i j 0 /\ has (s_sd (o_stats o')) i j 0 /\
          has (s_skew (o_stats o')) i j 0 /\ entry (s_cv (o_stats o')) i j = Some XN)) /\
    (if o_quantile o
     then (shape (s_median (o_stats o')) n c /\ shape (s_iqr (o_stats o')) n c /\ shape (s_qi (o_stats o')) n c) /\
       forall i j, (i < n)%nat -> (j < c)%nat ->
          (worked (o_par o) stop i -> quantiles n (o_weight o i) (d_x (o_data o) j) (o_stats o') i j) /\
          (~ worked (o_par o) stop i -> has (s_median (o_stats o')) i j 0 /\ has (s_iqr (o_stats o')) i j 0 /\ has (s_qi (o_stats o')) i j 0)
     else s_median (o_stats o') = s_median (o_stats o) /\ s_iqr (o_stats o') = s_iqr (o_stats o) /\ s_qi (o_stats o') = s_qi (o_stats o)) /\
    s_cov (o_stats o') = s_cov (o_stats o) /\ s_corr (o_stats o') = s_corr (o_stats o) /\ s_scorr (o_stats o') = s_scorr (o_stats o).
Proof. exact (average_case sort_index SI o stop order). Qed.
Print Assumptions C168_average.
(** Five locations of equal weight, quantiles wanted, a request to stop at location 2. *)
Example C168_average_case : let o := assign (SetQuantile true) (create five_points 5 (fun _ _ => 1)) in
  sorts_indices isort_index /\ reachable isort_index o /\ o_mode o = Average /\ o_locs o = d_rows (o_data o) /\
  (forall i, (i < o_locs o)%nat -> proper_weights (o_locs o) (o_weight o i)) /\
  (forall i j, (i < o_locs o)%nat -> (j < d_vars (o_data o))%nat -> light (o_locs o) (o_weight o i) (d_x (o_data o) j)) /\
  worked (o_par o) (fun i => Nat.eqb i 2) 1 /\ ~ worked (o_par o) (fun i => Nat.eqb i 2) 3.
Proof. exact average_example. Qed.

(** A run for correlations. *)
Theorem C168_correlation sort_index (SI : sorts_indices sort_index) o stop order :
  reachable sort_index o -> o_mode o = Correlation -> o_locs o = d_rows (o_data o) -> (2 <= d_vars (o_data o))%nat ->
  Permutation order (seq 0 (o_locs o)) ->
  (forall i, (i < o_locs o)%nat -> worked (o_par o) stop i -> proper_weights (o_locs o) (o_weight o i)) ->
  let n := o_locs o in let c := d_vars (o_data o) in
  exists pairs o', NoDup pairs /\ (forall j k, In (j, k) pairs <-> (j < k < c)%nat /\ (o_first o = true -> j = 0%nat)) /\
    run sort_index stop false order o = Returns o' /\ same_settings o o' /\
    (o_term o' = true <-> o_term o = true \/ exists i, (i < n)%nat /\ stop i = true) /\
    (shape (s_mean (o_stats o')) n c /\ shape (s_var (o_stats o')) n c /\ shape (s_cov (o_stats o')) n (length pairs) /\
     shape (s_corr (o_stats o')) n (length pairs) /\ shape (s_scorr (o_stats o')) n (length pairs)) /\
    (forall i j, (i < n)%nat -> (j < c)%nat ->
       (worked (o_par o) stop i -> has (s_mean (o_stats o')) i j (wmean n (o_weight o i) (d_x (o_data o) j)) /\
          has (s_var (o_stats o')) i j (wcov n (o_weight o i) (d_x (o_data o) j) (d_x (o_data o) j))) /\
       (~ worked (o_par o) stop i -> has (s_mean (o_stats o')) i j 0 /\ has (s_var (o_stats o')) i j 0)) /\
    (forall i t j k, (i < n)%nat -> nth_error pairs t = Some (j, k) ->
       (worked (o_par o) stop i -> correlations n (o_weight o i) (d_x (o_data o) j) (d_x (o_data o) k) (o_stats o') i t) /\
       (~ worked (o_par o) stop i -> has (s_cov (o_stats o')) i t 0 /\ has (s_corr (o_stats o')) i t 0 /\ has (s_scorr (o_stats o')) i t 0)) /\
    s_sd (o_stats o') = s_sd (o_stats o) /\ s_skew (o_stats o') = s_skew (o_stats o) /\ s_cv (o_stats o') = s_cv (o_stats o) /\
    s_median (o_stats o') = s_median (o_stats o) /\ s_iqr (o_stats o') = s_iqr (o_stats o) /\ s_qi (o_stats o') = s_qi (o_stats o).
Proof. exact (correlation_case sort_index SI o stop order). Qed.
Print Assumptions C168_correlation.
Example C168_correlation_case : let o := assign (SetMode Correlation) (create five_points 5 (fun _ _ => 1)) in
  reachable isort_index o /\ o_mode o = Correlation /\ o_locs o = d_rows (o_data o) /\ (2 <= d_vars (o_data o))%nat /\
  (forall i, (i < o_locs o)%nat -> proper_weights (o_locs o) (o_weight o i)).
Proof. exact correlation_example. Qed.

(** A request to stop before the loops changes nothing but the status. *)
Theorem C168_early sort_index o stop order :
  exists o', run sort_index stop true order o = Returns o' /\ same_settings o o' /\ o_stats o' = o_stats o /\ o_term o' = true.
Proof. exact (early_main sort_index o stop order). Qed.
Print Assumptions C168_early.

(** Fewer than two variables: correlations throw, after the means and variances of earlier runs were replaced by zeros. *)
Theorem C168_too_few_refuted sort_index o stop order : reachable sort_index o -> o_mode o = Correlation -> (d_vars (o_data o) < 2)%nat ->
  exists o', run sort_index stop false order o = Throws o' /\ same_settings o o' /\ o_term o' = o_term o /\
    null (s_mean (o_stats o')) (o_locs o) (d_vars (o_data o)) /\ null (s_var (o_stats o')) (o_locs o) (d_vars (o_data o)) /\
    s_sd (o_stats o') = s_sd (o_stats o).
Proof. exact (too_few_main sort_index o stop order). Qed.
Print Assumptions C168_too_few_refuted.
Example C168_too_few_case : let o := assign (SetMode Correlation) (create (mkData 3 1 (fun _ k => INR k)) 3 (fun _ _ => 1)) in
  reachable isort_index o /\ o_mode o = Correlation /\ (d_vars (o_data o) < 2)%nat.
Proof. split; [repeat constructor|]. split; [reflexivity|cbn; lia]. Qed.

(** Coordinates and variables of different numbers: nothing checks them before the loop. *)
Theorem C168_mismatch_refuted sort_index o stop order : reachable sort_index o -> o_locs o <> d_rows (o_data o) -> (0 < o_locs o)%nat -> stop 0%nat = false ->
  (o_mode o = Correlation -> (2 <= d_vars (o_data o))%nat) -> Permutation order (seq 0 (o_locs o)) ->
  (o_par o = OpenMP -> run sort_index stop false order o = Undefined) /\
  (o_par o <> OpenMP -> exists o', run sort_index stop false order o = Throws o' /\ same_settings o o' /\
     null (s_mean (o_stats o')) (o_locs o) (d_vars (o_data o)) /\ null (s_var (o_stats o')) (o_locs o) (d_vars (o_data o))).
Proof. exact (mismatch_main sort_index o stop order). Qed.
Print Assumptions C168_mismatch_refuted.
Example C168_mismatch_case : let o := assign (SetParallel OpenMP) (create five_points 4 (fun _ _ => 1)) in
  run isort_index (fun _ => false) false [0; 1; 2; 3]%nat o = Undefined.
Proof. apply C168_mismatch_refuted; [repeat constructor|discriminate|cbn; lia|reflexivity|discriminate|reflexivity|reflexivity]. Qed.

(** With quantiles, a location whose smallest observation has more than a quarter of the weights: a read out of range. *)
Theorem C168_heavy_refuted sort_index (SI : sorts_indices sort_index) o stop order i j :
  reachable sort_index o -> o_mode o = Average -> o_quantile o = true -> o_locs o = d_rows (o_data o) ->
  Permutation order (seq 0 (o_locs o)) -> (forall k, stop k = false) -> (i < o_locs o)%nat -> (j < d_vars (o_data o))%nat ->
  (forall k, (k < o_locs o)%nat -> proper_weights (o_locs o) (o_weight o k)) ->
  (forall k, (k < o_locs o)%nat -> (forall m, (m < o_locs o)%nat -> d_x (o_data o) j k <= d_x (o_data o) j m) ->
     1 / 4 < share (o_locs o) (o_weight o i) k) ->
  run sort_index stop false order o = Undefined.
Proof. exact (heavy_main sort_index SI o stop order i j). Qed.
Print Assumptions C168_heavy_refuted.
Example C168_heavy_case : run isort_index (fun _ => false) false [0; 1; 2]%nat (assign (SetQuantile true) (create some_data 3 (fun _ _ => 1))) = Undefined.
Proof. exact heavy_example. Qed.

(** A cancelled object stays "Terminated". *)
Theorem C168_status_refuted sort_index o stop early order o' : o_term o = true -> run sort_index stop early order o = Returns o' -> o_term o' = true.
Proof. exact (status_main sort_index o stop early order o'). Qed.
Print Assumptions C168_status_refuted.
Example C168_status_case : exists o' o'', run isort_index (fun _ => false) true [] (create five_points 5 (fun _ _ => 1)) = Returns o' /\
  run isort_index (fun _ => false) false (seq 0 5) o' = Returns o'' /\ o_term o'' = true.
Proof. exact status_example. Qed.

(** After averages of one table and correlations of another, localSDev is not the root of localVar. *)
Theorem C168_stale_refuted sort_index (SI : sorts_indices sort_index) d d' n w i j : n = d_rows d -> n = d_rows d' -> (2 <= d_vars d')%nat ->
  (forall k, (k < n)%nat -> proper_weights n (w k)) -> (i < n)%nat -> (j < d_vars d)%nat -> (j < d_vars d')%nat ->
  wcov n (w i) (d_x d j) (d_x d j) <> wcov n (w i) (d_x d' j) (d_x d' j) ->
  exists o1 o2 v, run sort_index (fun _ => false) false (seq 0 n) (create d n w) = Returns o1 /\
    run sort_index (fun _ => false) false (seq 0 n) (assign (SetMode Correlation) (assign (SetVariables d') o1)) = Returns o2 /\
    has (s_var (o_stats o2)) i j v /\ ~ has (s_sd (o_stats o2)) i j (sqrt v).
Proof. exact (stale_main sort_index SI d d' n w i j). Qed.
Print Assumptions C168_stale_refuted.
Example C168_stale_case : wcov 3 (fun _ => 1) (d_x some_data 0) (d_x some_data 0) <> wcov 3 (fun _ => 1) (fun k => 2 * INR k) (fun k => 2 * INR k).
Proof. exact stale_example. Qed.
