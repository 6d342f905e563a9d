(** Property theorems C171: what repeated sweeps of the backfitting amount to, and whether they converge.
    Vocabulary: MsConvSpec.v, MsSpec.v, GwrSpec.v.  Source: GWRMultiscale.cpp:293-385, 387-398, 488-545. *)
From mathcomp Require Import all_ssreflect all_algebra.
From Verif Require Import Outcome GwrModel GwrSpec GwrProofs MsModel MsSpec MsCases MsConvSpec MsConvMain.
Set Implicit Arguments. Unset Strict Implicit. Unset Printing Implicit Defensive.
Import Order.TTheory GRing.Theory Num.Theory.
Local Open Scope ring_scope.

(** Every sweep sets the contribution of each variable, in order, to what the smoother of its weights makes of the
    response less the newest contributions of the other variables.  Weights may have any sign. *)
Theorem C171_sweep_is_smoothing : forall (F : realFieldType) n p (inv1 : 'M[F]_1 -> option 'M[F]_1)
    hat (x : 'M[F]_(n, p)) y (s : fitted_model F n p) bw init wt select threshold retry (sts : nat -> ms F n p) K,
  inverse_contract inv1 ->
  sts 0%N = ms_start x y s bw init ->
  (forall j, (j < K)%N -> sweep inv1 hat x y wt select threshold retry (fun _ _ => false) (fun _ _ => false) (fun _ _ _ => false)
     j.+1 (enum 'I_p) (sts j) = Ok (sts j.+1)) ->
  let f i j := share x (mbetas (sts j)) i in
  forall i j, (j < K)%N ->
  f i j.+1 = smoother (col i x) (wt i (mbw (sts j.+1) i)) *m
    (y - \sum_(k : 'I_p | (k < i)%N) f k j.+1 - \sum_(k : 'I_p | (i < k)%N) f k j).
Proof. exact recursion_thm. Qed.
Print Assumptions C171_sweep_is_smoothing.
Example C171_sweep_case : forall K, exists sts : nat -> ms _ 2 2, sts 0%N = ex2_s0 /\
  forall j, (j < K)%N -> sweep (@exact_inv _ 1) true ex2_x ex2_y ex2_wt (fun _ _ _ _ b => Ok b) (fun _ => 1) 5
    (fun _ _ => false) (fun _ _ => false) (fun _ _ _ => false) j.+1 (enum 'I_2) (sts j) = Ok (sts j.+1).
Proof. exact (trace_exists _ _ ex2_inv1). Qed.

(** One variable of a given bandwidth: the first sweep settles everything. *)
Theorem C171_one_variable : forall (F : realFieldType) n (inv1 : 'M[F]_1 -> option 'M[F]_1)
    hat (x : 'M[F]_(n, 1)) y (s : fitted_model F n 1) bw init wt select threshold retry (sts : nat -> ms F n 1) K,
  inverse_contract inv1 -> init ord0 = ISpecified ->
  sts 0%N = ms_start x y s bw init ->
  (forall j, (j < K)%N -> sweep inv1 hat x y wt select threshold retry (fun _ _ => false) (fun _ _ => false) (fun _ _ _ => false)
     j.+1 (enum 'I_1) (sts j) = Ok (sts j.+1)) ->
  forall j, (0 < j <= K)%N -> share x (mbetas (sts j)) ord0 = smoother (col ord0 x) (wt ord0 (bw ord0)) *m y.
Proof. exact one_variable_main. Qed.
Print Assumptions C171_one_variable.
Example C171_one_variable_case : forall K, exists sts : nat -> ms _ 2 1, sts 0%N = ex1_s0 /\
  forall j, (j < K)%N -> sweep (@exact_inv _ 1) true ex1_x ex2_y (fun _ _ _ => ones) (fun _ _ _ _ b => Ok b) (fun _ => 1) 5
    (fun _ _ => false) (fun _ _ => false) (fun _ _ _ => false) j.+1 (enum 'I_1) (sts j) = Ok (sts j.+1).
Proof. exact (trace_exists _ _ ex1_inv1). Qed.

(** Two variables of given bandwidths.  Missing from the full claim, convergence for all data: the sweeps approach a
    solution of the equations only if the product of the smoothers contracts some measure of size. *)
Theorem C171_converges_partial : forall (F : realFieldType) n (inv1 : 'M[F]_1 -> option 'M[F]_1)
    hat (x : 'M[F]_(n, 2)) y (s : fitted_model F n 2) bw wt select threshold retry (sts : nat -> ms F n 2) K,
  let S1 := smoother (col ord0 x) (wt ord0 (bw ord0)) in
  let S2 := smoother (col ord_max x) (wt ord_max (bw ord_max)) in
  inverse_contract inv1 ->
  sts 0%N = ms_start x y s bw (fun _ => ISpecified) ->
  (forall j, (j < K)%N -> sweep inv1 hat x y wt select threshold retry (fun _ _ => false) (fun _ _ => false) (fun _ _ _ => false)
     j.+1 (enum 'I_2) (sts j) = Ok (sts j.+1)) ->
  forall (N : 'cV[F]_n -> F) (q : F) f1 f2, 0 <= q -> (forall v, N (S2 *m S1 *m v) <= q * N v) -> additive_solution S1 S2 y f1 f2 ->
  forall j, (j <= K)%N ->
  N (share x (mbetas (sts j)) ord_max - f2) <= q ^+ j * N (share x (mbetas (sts 0%N)) ord_max - f2).
Proof. exact converges_main. Qed.
Print Assumptions C171_converges_partial.
(** Two observations, weights one: the error of the sum of the second contribution halves with every sweep. *)
Example C171_converges_case :
  let S1 := smoother (col ord0 ex2_x) (ex2_wt ord0 3%:R) in
  let S2 := smoother (col ord_max ex2_x) (ex2_wt ord_max 3%:R) in
  (forall v, ex2_N (S2 *m S1 *m v) <= 2%:R^-1 * ex2_N v) /\ additive_solution S1 S2 ex2_y ex2_f0 ex2_f1 /\
  ex2_N (share ex2_x (mbetas ex2_s0) ord_max - ex2_f1) = 1.
Proof. exact ex2_converges. Qed.

(** Three observations for which the equations have a solution without residuals (see also C171_kernel_weights). *)
Theorem C171_solution_exists : forall (F : realFieldType) (bw : 'I_2 -> F),
  additive_solution (smoother (col ord0 (dv_x F)) (dv_wt ord0 (bw ord0))) (smoother (col ord_max (dv_x F)) (dv_wt ord_max (bw ord_max)))
    (dv_y F) (share (dv_x F) (dv_b F) ord0) (share (dv_x F) (dv_b F) ord_max) /\
  rss_of (dv_x F) (dv_b F) (dv_y F) = 0.
Proof. exact dv_solution_main. Qed.
Print Assumptions C171_solution_exists.

(** From whatever coefficients the sweeps start, those of the first variable at the first two observations grow by
    126/125 with every sweep, and the residual sum of squares by its square. *)
Theorem C171_grows : forall (F : realFieldType) (inv1 : 'M[F]_1 -> option 'M[F]_1) hat (s : fitted_model F 3 2) bw
    select threshold retry (sts : nat -> ms F 3 2) K,
  inverse_contract inv1 ->
  sts 0%N = ms_start (dv_x F) (dv_y F) s bw (fun _ => ISpecified) ->
  (forall j, (j < K)%N -> sweep inv1 hat (dv_x F) (dv_y F) (@dv_wt F) select threshold retry
     (fun _ _ => false) (fun _ _ => false) (fun _ _ _ => false) j.+1 (enum 'I_2) (sts j) = Ok (sts j.+1)) ->
  forall j, (j < K)%N ->
  let b a := mbetas (sts 0%N) a ord_max in
  let c := (126%:R / 125%:R) ^+ j * (((1 - b ord0) + 3%:R * (2%:R - 2%:R * b (lift ord0 ord0))) / 10%:R) in
  (forall a : 'I_3, (a < 2)%N -> mbetas (sts j.+1) a ord0 = c) /\
  rss_of (dv_x F) (mbetas (sts j.+1)) (dv_y F) = 26%:R / 625%:R * c ^+ 2.
Proof. exact grows_thm. Qed.
Print Assumptions C171_grows.
Example C171_grows_case : forall K, exists sts : nat -> ms _ 3 2, sts 0%N = dv_s0 /\
  forall j, (j < K)%N -> sweep (@exact_inv _ 1) true (dv_x _) (dv_y _) (@dv_wt _) (fun _ _ _ _ b => Ok b) (fun _ => 1) 5
    (fun _ _ => false) (fun _ _ => false) (fun _ _ _ => false) j.+1 (enum 'I_2) (sts j) = Ok (sts j.+1).
Proof. exact dv_trace. Qed.

(** The call from the start, with either criterion and any threshold up to 1/400 (the default is a millionth), uses up
    every iteration limit m + 1 and returns coefficients and a residual sum of squares that grow without bound with m. *)
Theorem C171_diverges_refuted : forall (F : rcfType) hat bw0 select0 select threshold retry ctype (t : F) m,
  t <= 400%:R^-1 ->
  (forall it i xi yi b, exists b', select it i xi yi b = Ok b') ->
  exists st,
  ms_fit (@exact_inv F 1) (@exact_inv F 2) hat false (fun _ => false) (dv_x F) (dv_y F) (fun _ => const_mx 1)
    (fun _ => ISpecified) bw0 select0 (@dv_wt F) select threshold retry
    (fun _ => false) (fun _ _ => false) (fun _ _ => false) (fun _ _ _ => false) ctype t Num.sqrt m.+1
    = Ok (st, 26%:R / 625%:R * (21%:R / 10%:R * (126%:R / 125%:R) ^+ m) ^+ 2) /\
  (forall a : 'I_3, (a < 2)%N -> mbetas st a ord0 = - (21%:R / 10%:R) * (126%:R / 125%:R) ^+ m).
Proof. exact diverges_main. Qed.
Print Assumptions C171_diverges_refuted.
