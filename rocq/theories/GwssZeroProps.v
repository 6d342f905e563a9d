(** C168: locations that no observation weighs in (GWSS.cpp:24-50, 100-132, 175-222). *)
From Coq Require Import Reals Bool List Arith Permutation.
From Verif Require Import Outcome XReal GwssSpec GwssCases GwssObjModel GwssObjSpec GwssObjStale GwssZero.
Import ListNotations.
Local Open Scope R_scope.

(** The statistics of such a location are not all undefined: the moments are, but the median is the largest of all observations and the
    interquartile range is zero. *)
Theorem C168_no_weight_refuted sort_index (SI : sorts_indices sort_index) o stop order :
  reachable sort_index o -> o_mode o = Average -> o_quantile o = true -> o_locs o = d_rows (o_data o) -> Permutation order (seq 0 (o_locs o)) ->
  (forall i, (i < o_locs o)%nat -> worked (o_par o) stop i -> (forall k, (k < o_locs o)%nat -> o_weight o i k = 0) \/
     proper_weights (o_locs o) (o_weight o i) /\ forall j, (j < d_vars (o_data o))%nat -> light (o_locs o) (o_weight o i) (d_x (o_data o) j)) ->
  exists o', run sort_index stop false order o = Returns o' /\
    forall i j, (i < o_locs o)%nat -> (j < d_vars (o_data o))%nat -> worked (o_par o) stop i -> (forall k, (k < o_locs o)%nat -> o_weight o i k = 0) ->
      entry (s_mean (o_stats o')) i j = Some XN /\ entry (s_var (o_stats o')) i j = Some XN /\ entry (s_sd (o_stats o')) i j = Some XN /\
      entry (s_skew (o_stats o')) i j = Some XN /\ entry (s_cv (o_stats o')) i j = Some XN /\
      exists v, (exists k, (k < o_locs o)%nat /\ v = d_x (o_data o) j k) /\ (forall k, (k < o_locs o)%nat -> d_x (o_data o) j k <= v) /\
        has (s_median (o_stats o')) i j v /\ has (s_iqr (o_stats o')) i j 0 /\ entry (s_qi (o_stats o')) i j = Some XN.
Proof. exact (zero_main sort_index SI o stop order). Qed.
Print Assumptions C168_no_weight_refuted.
(** Five locations, the third without weights. *)
Example C168_no_weight_case : let o := assign (SetQuantile true) (create five_points 5 (fun i _ => if Nat.eqb i 2 then 0 else 1)) in
  sorts_indices isort_index /\ reachable isort_index o /\ o_mode o = Average /\ o_quantile o = true /\ o_locs o = d_rows (o_data o) /\
  worked (o_par o) (fun _ => false) 2 /\ (forall k, (k < o_locs o)%nat -> o_weight o 2 k = 0) /\
  (forall i, (i < o_locs o)%nat -> (forall k, (k < o_locs o)%nat -> o_weight o i k = 0) \/
     proper_weights (o_locs o) (o_weight o i) /\ forall j, (j < d_vars (o_data o))%nat -> light (o_locs o) (o_weight o i) (d_x (o_data o) j)).
Proof. exact zero_example. Qed.
