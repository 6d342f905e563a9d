(** Property theorems C53-C57: multiscale GWR.  Vocabulary: MsSpec.v, GwrSpec.v.
    The bandwidth selectors, weights, telegram answers and the square root are arbitrary. *)
From mathcomp Require Import all_ssreflect all_algebra.
From Verif Require Import Outcome GwrModel GwrSpec GwrProofs MsModel MsSpec MsCases MsTrace.
Set Implicit Arguments. Unset Strict Implicit. Unset Printing Implicit Defensive.
Import Order.TTheory GRing.Theory Num.Theory.
Local Open Scope ring_scope.

(** C53: whatever the data, the iteration limit and the moments of cancellation, the hat
    matrices left behind are consistent with the coefficients left behind. *)
Theorem C53_hat_matrices_consistent : forall (F : realFieldType) n p
    (inv1 : 'M[F]_1 -> option 'M[F]_1) (inv : 'M[F]_p -> option 'M[F]_p)
    ic flags (x0 : 'M[F]_(n, p)) y W0 init bw0 select0
    wt select threshold retry stop_iter stop_var stop_sel stop_in ctype cthreshold root maxiter st r,
  inverse_contract inv ->
  ms_fit inv1 inv true ic flags x0 y W0 init bw0 select0 wt select threshold retry
    stop_iter stop_var stop_sel stop_in ctype cthreshold root maxiter = Ok (st, r) ->
  hats_consistent (centre ic flags x0) (mbetas st) y (mS0 st) (mSA st).
Proof. exact C53_main. Qed.
Print Assumptions C53_hat_matrices_consistent.
(** The residual vector and the RSS passed to the diagnostics are those of the final
    coefficients. *)
Theorem C53_residuals_current : forall (F : realFieldType) n p
    (inv1 : 'M[F]_1 -> option 'M[F]_1) (inv : 'M[F]_p -> option 'M[F]_p)
    hat ic flags (x0 : 'M[F]_(n, p)) y W0 init bw0 select0
    wt select threshold retry stop_iter stop_var stop_sel stop_in ctype cthreshold root maxiter st r,
  ms_fit inv1 inv hat ic flags x0 y W0 init bw0 select0 wt select threshold retry
    stop_iter stop_var stop_sel stop_in ctype cthreshold root maxiter = Ok (st, r) ->
  (forall j, mresid st j ord0 = y j ord0 - \sum_i centre ic flags x0 j i * mbetas st j i) /\
  r = \sum_j (y j ord0 - \sum_i centre ic flags x0 j i * mbetas st j i) ^+ 2.
Proof. exact fit_rss. Qed.
Print Assumptions C53_residuals_current.

(** C54: at most maxiter sweeps, each refitting the variables in order; without
    cancellation each sweep refits every variable. *)
Theorem C54_sweeps : forall (F : realFieldType) n p
    (inv1 : 'M[F]_1 -> option 'M[F]_1) (inv : 'M[F]_p -> option 'M[F]_p)
    hat ic flags (x0 : 'M[F]_(n, p)) y W0 init bw0 select0
    wt select threshold retry stop_iter stop_var stop_sel stop_in ctype cthreshold root maxiter st r,
  ms_fit inv1 inv hat ic flags x0 y W0 init bw0 select0 wt select threshold retry
    stop_iter stop_var stop_sel stop_in ctype cthreshold root maxiter = Ok (st, r) ->
  exists ms, [/\ mfits st = sweeps p ms, (size ms <= maxiter)%N &
    (forall it i, stop_var it i = false /\ stop_sel it i = false) -> all (fun m => m == p) ms].
Proof. exact C54_main. Qed.
Print Assumptions C54_sweeps.

(** The sweeps start from the basic GWR coefficients and from the given bandwidths, or selected ones
    where none is given.  They go on while the criterion is
    above its threshold and end, before the iteration limit or a cancellation, exactly when
    it is not: the criterion is the change of the RSS over the last sweep (CVR), or the root
    of that change relative to the new RSS (dCVR). *)
Theorem C54_stops_at_convergence : forall (F : realFieldType) n p
    (inv1 : 'M[F]_1 -> option 'M[F]_1) (inv : 'M[F]_p -> option 'M[F]_p)
    hat ic flags (x0 : 'M[F]_(n, p)) y W0 init bw0 select0
    wt select threshold retry stop_iter stop_var stop_sel stop_in ctype cthreshold root maxiter st r,
  ms_fit inv1 inv hat ic flags x0 y W0 init bw0 select0 wt select threshold retry
    stop_iter stop_var stop_sel stop_in ctype cthreshold root maxiter = Ok (st, r) ->
  let x := centre ic flags x0 in
  exists s bw (sts : nat -> ms F n p) K,
    [/\ fit_core inv hat hat 0 n x y W0 (fun _ => false) = Ok (s, false),
        sts 0%N = ms_start x y s bw init, forall j i, mbetas (sts 0%N) j i = betas s i j,
        sts K = st & (K <= maxiter)%N] /\
    (forall i, if is_null (init i) then select0 i (col i x) y (bw0 i) = Ok (bw i) else bw i = bw0 i) /\
    let rss j := rss_of x (mbetas (sts j)) y in
    let change j := match ctype with
      | CVR => `|rss j.+1 - rss j| | dCVR => root (`|rss j.+1 - rss j| / rss j.+1) end in
    [/\ forall j, (j < K)%N -> stop_iter j.+1 = false /\
          sweep inv1 hat x y wt select threshold retry stop_var stop_sel stop_in j.+1 (enum 'I_p) (sts j) = Ok (sts j.+1),
        forall j, (j.+1 < K)%N -> cthreshold < change j &
        (K < maxiter)%N -> stop_iter K.+1 \/ exists j, K = j.+1 /\ change j <= cthreshold].
Proof. exact C54_trace. Qed.
Print Assumptions C54_stops_at_convergence.

(** C55: a specified bandwidth is returned as given. *)
Theorem C55_specified_kept : forall (F : realFieldType) n p
    (inv1 : 'M[F]_1 -> option 'M[F]_1) (inv : 'M[F]_p -> option 'M[F]_p)
    hat ic flags (x0 : 'M[F]_(n, p)) y W0 init bw0 select0
    wt select threshold retry stop_iter stop_var stop_sel stop_in ctype cthreshold root maxiter st r i,
  ms_fit inv1 inv hat ic flags x0 y W0 init bw0 select0 wt select threshold retry
    stop_iter stop_var stop_sel stop_in ctype cthreshold root maxiter = Ok (st, r) ->
  init i = ISpecified -> mbw st i = bw0 i /\ minit st i = ISpecified.
Proof. exact C55_main. Qed.
Print Assumptions C55_specified_kept.
(** From any iteration on, a variable marked as specified (converged) keeps its bandwidth
    and its mark, *)
Theorem C55_converged_kept : forall (F : realFieldType) n p (inv1 : 'M[F]_1 -> option 'M[F]_1)
    hat (x : 'M[F]_(n, p)) y wt select threshold retry stop_iter stop_var stop_sel stop_in
    ctype cthreshold root k it rss0 crit (st st' : ms F n p) r i,
  minit st i = ISpecified ->
  iterate inv1 hat x y wt select threshold retry stop_iter stop_var stop_sel stop_in
    ctype cthreshold root k it rss0 crit st = Ok (st', r) ->
  mbw st' i = mbw st i /\ minit st' i = ISpecified.
Proof. exact C55_resume. Qed.
Print Assumptions C55_converged_kept.
(** and the selector is not asked for it: its answers for that variable do not matter. *)
Theorem C55_not_selected_again : forall (F : realFieldType) n p (inv1 : 'M[F]_1 -> option 'M[F]_1)
    hat (x : 'M[F]_(n, p)) y wt sel1 sel2 threshold retry stop_iter stop_var stop_sel stop_in
    ctype cthreshold root k it rss0 crit (st : ms F n p) i,
  minit st i = ISpecified -> (forall it' i', i' != i -> sel1 it' i' = sel2 it' i') ->
  iterate inv1 hat x y wt sel1 threshold retry stop_iter stop_var stop_sel stop_in
    ctype cthreshold root k it rss0 crit st =
  iterate inv1 hat x y wt sel2 threshold retry stop_iter stop_var stop_sel stop_in
    ctype cthreshold root k it rss0 crit st.
Proof. exact C55_ext. Qed.
Print Assumptions C55_not_selected_again.
(** A bandwidth that was not given counts as converged exactly when [retry] consecutive
    sweeps (at least one) have each changed it by no more than its threshold. *)
Theorem C55_converged_after_repeats : forall (F : realFieldType) n p (inv1 : 'M[F]_1 -> option 'M[F]_1)
    hat (x : 'M[F]_(n, p)) y (s : fitted_model F n p) bw init wt select threshold retry stop_in
    (sts : nat -> ms F n p) K,
  sts 0%N = ms_start x y s bw init ->
  (forall j, (j < K)%N -> sweep inv1 hat x y wt select threshold retry (fun _ _ => false) (fun _ _ => false) stop_in
     j.+1 (enum 'I_p) (sts j) = Ok (sts j.+1)) ->
  forall i k, init i <> ISpecified -> (k <= K)%N ->
  (minit (sts k) i = ISpecified <->
   exists j, (j + maxn 1 retry <= k)%N /\
     forall l, (j <= l < j + maxn 1 retry)%N -> `|mbw (sts l.+1) i - mbw (sts l) i| <= threshold i).
Proof. exact C55_trace. Qed.
Print Assumptions C55_converged_after_repeats.
Example C55_case : forall K, exists sts : nat -> ms [realFieldType of rat] 2 2, sts 0%N = ex2_start /\
  forall j, (j < K)%N -> sweep (@exact_inv _ 1) true ex2_x (ex2_x *m ex2_g) ex2_wt ex2_sel (fun _ => 2%:R^-1) 5
    (fun _ _ => false) (fun _ _ => false) (fun _ _ _ => false) j.+1 (enum 'I_2) (sts j) = Ok (sts j.+1).
Proof. exact ex2_trace. Qed.
(** A run for C53-C55: two variables, the second one specified, stopped or not. *)
Example C53_case : inverse_contract (@exact_inv [realFieldType of rat] 2) /\
  forall stop_iter stop_var stop_sel stop_in, exists r,
  ms_fit (@exact_inv [realFieldType of rat] 1) (@exact_inv _ 2) true true (fun _ => false) ex2_x (const_mx 2%:R) (fun _ => ones)
    (fun i => if i == ord0 then INull else ISpecified) (fun _ => 3%:R) (fun _ _ _ b => Ok (b + 1)) ex2_wt ex2_sel
    (fun _ => 2%:R^-1) 5 stop_iter stop_var stop_sel stop_in CVR 2%:R^-1 id 500 = Ok r.
Proof. exact (conj (@exact_inv_contract _ _) (ex2_run _ _)). Qed.

(** C56: the requested columns (never the intercept) are shifted to mean zero, the others
    are untouched, and centring again changes nothing. *)
Theorem C56_centring : forall (F : realFieldType) n p (ic : bool) (flags : 'I_p -> bool) (x : 'M[F]_(n, p)),
  [/\ forall i : 'I_p, ~~ (ic && (i == 0%N :> nat)) -> flags i -> column_mean_zero (centre ic flags x) i,
      forall i : 'I_p, ~~ (ic && (i == 0%N :> nat)) -> flags i ->
        exists m, forall j, centre ic flags x j i = x j i - m,
      forall (i : 'I_p) j, ic && (i == 0%N :> nat) || ~~ flags i -> centre ic flags x j i = x j i &
      centre ic flags (centre ic flags x) = centre ic flags x].
Proof. exact C56_main. Qed.
Print Assumptions C56_centring.

(** C57: in every sweep of an uncancelled run, variable i is fitted to what the other
    variables leave, those before it with their new coefficients and the others with their
    old ones; its bandwidth is kept once specified and otherwise selected on that response. *)
Theorem C57_every_sweep : forall (F : realFieldType) n p (inv1 : 'M[F]_1 -> option 'M[F]_1)
    hat (x : 'M[F]_(n, p)) y (s : fitted_model F n p) bw init wt select threshold retry
    (sts : nat -> ms F n p) K,
  sts 0%N = ms_start x y s bw init ->
  (forall j, (j < K)%N -> sweep inv1 hat x y wt select threshold retry (fun _ _ => false) (fun _ _ => false) (fun _ _ _ => false)
     j.+1 (enum 'I_p) (sts j) = Ok (sts j.+1)) ->
  forall (i : 'I_p) j, (j < K)%N ->
  let b := \matrix_(a, k) (if (k < i)%N then mbetas (sts j.+1) a k else mbetas (sts j) a k) in
  let yi := partial_residual x b y i in
  [/\ minit (sts j) i = ISpecified -> mbw (sts j.+1) i = mbw (sts j) i,
      minit (sts j) i <> ISpecified -> select j.+1 i (col i x) yi (mbw (sts j) i) = Ok (mbw (sts j.+1) i) &
      inverse_contract inv1 -> forall a, (forall k, 0 <= wt i (mbw (sts j.+1) i) a k ord0) ->
        only_minimiser (col i x) yi (wt i (mbw (sts j.+1) i) a) (const_mx (mbetas (sts j.+1) a i))].
Proof. exact C57_trace. Qed.
Print Assumptions C57_every_sweep.
(** If one more sweep changes no coefficient, every coefficient is the only solution
    of the local regression of what the other variables leave on its own variable, with
    the weights of its bandwidth. *)
Theorem C57_fixed_point : forall (F : realFieldType) n p (inv1 : 'M[F]_1 -> option 'M[F]_1)
    hat (x : 'M[F]_(n, p)) y (s : fitted_model F n p) bw init
    wt select threshold retry stop_iter stop_var stop_sel stop_in ctype cthreshold root maxiter st r it st',
  inverse_contract inv1 ->
  backfitting inv1 hat x y wt select threshold retry stop_iter stop_var stop_sel stop_in
    ctype cthreshold root maxiter (ms_start x y s bw init) = Ok (st, r) ->
  sweep inv1 hat x y wt select threshold retry (fun _ _ => false) (fun _ _ => false) (fun _ _ _ => false)
    it (enum 'I_p) st = Ok st' ->
  mbetas st' = mbetas st ->
  forall i j, (forall k, 0 <= wt i (mbw st' i) j k ord0) ->
  only_minimiser (col i x) (partial_residual x (mbetas st') y i) (wt i (mbw st' i) j) (const_mx (mbetas st' j i)).
Proof. exact C57_main. Qed.
Print Assumptions C57_fixed_point.
Example C57_case : exists st',
  sweep (@exact_inv _ 1) true ex2_x (ex2_x *m ex2_g) ex2_wt ex2_sel (fun _ => 2%:R^-1) 5
    (fun _ _ => false) (fun _ _ => false) (fun _ _ _ => false) 1 (enum 'I_2) ex2_start = Ok st' /\
  mbetas st' = mbetas ex2_start.
Proof. exact ex2_fixed. Qed.
