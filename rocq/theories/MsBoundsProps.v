(** Property theorems C89: search interval of the bandwidths in multiscale GWR.
    Vocabulary: GoldSpec.v (evaluated). *)
From Coq Require Import Reals Bool List Lra.
From Verif Require Import XReal KernelModel GoldModel GoldSpec MsBounds MsBoundsProofs.
Local Open Scope R_scope.

(** C89, true part: for a variable selected from scratch (Null) with a fixed bandwidth and no
    user bounds, backfitting searches strictly between the least and the greatest distance.
    Missing: variables of type Initial, for which it is false (below). *)
Theorem C89_search_interval_partial : forall crit w al n dmin dmax, wadaptive w = false -> dmin < dmax ->
  let r := backfit_search crit w None None al n BNull dmin dmax in
  (forall w' v, evaluated r w' v -> dmin < wvalue w' < dmax) /\
  (forall wr, rresult r = Fresh wr -> dmin < wvalue wr < dmax).
Proof. exact C89_null_main. Qed.
Print Assumptions C89_search_interval_partial.
Example C89_case : wadaptive dw = false /\ 1 < 2. Proof. split; [reflexivity|lra]. Qed.

(** For a variable of type Initial the only bandwidth evaluated or returned is 0. *)
Theorem C89_initial_collapses : forall crit w al n dmin dmax, wadaptive w = false ->
  let r := backfit_search crit w None None al n BInitial dmin dmax in
  (forall w' v, evaluated r w' v -> wvalue w' = 0) /\
  (forall wr, rresult r = Fresh wr -> wvalue wr = 0) /\ (rcalls r <= 2)%nat.
Proof. exact C89_main. Qed.
Print Assumptions C89_initial_collapses.
Theorem C89_search_interval_refuted : exists crit w dmin dmax, wadaptive w = false /\ 0 < dmin < dmax /\
  exists w' v, evaluated (backfit_search crit w None None 20 100 BInitial dmin dmax) w' v /\
    ~ (dmin <= wvalue w' <= dmax).
Proof. exact C89_refuted_main. Qed.
Print Assumptions C89_search_interval_refuted.
