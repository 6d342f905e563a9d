(** C121-C127: whole runs of GWRBasic::fit. *)
From Coq Require Import Reals Bool List Arith ZArith Lia Lra.
From Verif Require Import Outcome XReal XRealFacts KernelModel KernelSpec GoldModel GoldSpec GoldProofs2 VarModel VarSpec VarProofs
  FlowModel FlowProofs FlowCases FlowCases2 FlowCases3 FlowExample Sums DiagModel FlowNan.
Import ListNotations.
Local Open Scope nat_scope.

(** C121: after a fit that returned or threw, the design matrix consists of the intercept column and the
    selected columns of the matrix before it, in the order of the selection; the selected positions are
    distinct columns of that matrix other than the intercept.  Without selection nothing changes. *)
Theorem C121_columns : forall (C B : Type) (W : world C B) srt (o o' : object C), sorter srt ->
  (exists v, flow_fit W srt o = Returned v o') \/ flow_fit W srt o = Threw o' ->
  (o_auto_vars o = false \/ w_stop0 W = true -> o_x o' = o_x o /\ o_selected o' = o_selected o) /\
  (o_auto_vars o = true -> w_stop0 W = false ->
   o_selected o' <> [] /\ NoDup (o_selected o') /\
   (forall i, In i (o_selected o') -> (if o_intercept o then 1 else 0) <= i < length (o_x o)) /\
   map Some (o_x o') = map (nth_error (o_x o)) ((if o_intercept o then [0] else []) ++ o_selected o')).
Proof. exact C121_columns_main. Qed.
Print Assumptions C121_columns.
Example C121_case : exists h o', flow_fit demoW vsort (demoO true true false) = Returned (Coefficients ([5; 7], h)) o' /\
  o_selected o' = [2] /\ o_x o' = [5; 7] /\ o_terminated o' = false /\ o_auto_vars o' = true.
Proof. exact (demo_run false). Qed.

(** C121: the criterion of the selector is only called with positions for which the columns it fits are
    exactly the columns asked for. *)
Theorem C121_calls_in_range : forall (C : Type) (o : object C) vs, candidates o <> [] -> incl vs (candidates o) ->
  map Some (picked (o_x o) (index2uvec vs (o_intercept o))) =
  map (nth_error (o_x o)) ((if o_intercept o then [0] else []) ++ vs).
Proof. exact (fun C o vs N I => picked_ok C (o_x o) _ (idx_range C o vs N I)). Qed.
Print Assumptions C121_calls_in_range.

(** C121: every model reported with its criterion is a list of distinct candidate columns, and the criterion
    is the one computed for the intercept and these columns with bandwidth DBL_MAX. *)
Theorem C121_reported : forall (C B : Type) (W : world C B) srt (o : object C) v o', sorter srt ->
  o_auto_vars o = true -> w_stop0 W = false ->
  flow_fit W srt o = Returned v o' -> o_terminated o' = false ->
  forall vs u, In (vs, u) (o_vlist o') ->
  NoDup vs /\ (forall i, In i vs -> (if o_intercept o then 1 else 0) <= i < length (o_x o)) /\
  exists k xs a, map Some xs = map (nth_error (o_x o)) ((if o_intercept o then [0] else []) ++ vs) /\
    w_vfit W k xs (mkWeight (wkernel (o_weight o)) (wadaptive (o_weight o)) DBL_MAX) = (false, a) /\
    u = match a with Some z => z | None => XF DBL_MAX end.
Proof. exact C121_reported_main. Qed.
Print Assumptions C121_reported.

(** C122: the result is the regression on the columns and with the weight the object ends up with, or a
    matrix of zeros of that number of columns when the telegram stopped the run between the stages. *)
Theorem C122_result : forall (C B : Type) (W : world C B) srt (o : object C) v o', flow_fit W srt o = Returned v o' ->
  match v with
  | Coefficients b => exists stopped, w_final W (o_x o') (o_weight o') = Ok (b, stopped) /\ (stopped = true -> o_terminated o' = true)
  | Zeros r c => r = w_n W /\ c = length (o_x o') /\ o_terminated o' = true
  end.
Proof. exact C122_result_main. Qed.
Print Assumptions C122_result.
Example C122_case : exists h o', flow_fit demoW vsort (demoO true true true) = Returned (Coefficients ([5; 7], h)) o' /\
  o_selected o' = [2] /\ o_x o' = [5; 7] /\ o_terminated o' = false /\ o_auto_vars o' = true.
Proof. exact (demo_run true). Qed.

(** C122: a run with bandwidth selection that was not cancelled keeps kernel and kind of the weight; every
    listed bandwidth comes with the criterion computed on the selected columns; the bandwidth used is listed
    and no listed one has a smaller criterion.  Premises: the criterion of a bandwidth does not depend on
    the call, and finite values are doubles. *)
Theorem C122_bandwidth : forall (C B : Type) (W : world C B) srt (o : object C) b o', sorter srt ->
  (forall k x w s r, w_bfit W k x w = (s, Some (XF r)) -> (r <= DBL_MAX)%R) ->
  (forall k k' x w, w_bfit W k x w = w_bfit W k' x w) ->
  flow_fit W srt o = Returned (Coefficients b) o' -> o_auto_bw o = true -> o_terminated o' = false ->
  wkernel (o_weight o') = wkernel (o_weight o) /\ wadaptive (o_weight o') = wadaptive (o_weight o) /\
  (forall x u, In (x, u) (o_blist o') ->
     w_bfit W 0 (o_x o') (mkWeight (wkernel (o_weight o)) (wadaptive (o_weight o)) x) = (false, Some u) /\ xfinite u = true) /\
  exists v, In (wvalue (o_weight o'), v) (o_blist o') /\ forall x u, In (x, u) (o_blist o') -> not_greater v u.
Proof. exact C122_bandwidth_main. Qed.
Print Assumptions C122_bandwidth.
Example C122_bandwidth_case : (forall k x w s r, w_bfit demoW k x w = (s, Some (XF r)) -> (r <= DBL_MAX)%R) /\
  (forall k k' x w, w_bfit demoW k x w = w_bfit demoW k' x w).
Proof. split; [|reflexivity]. intros k x w s r H. inversion H. pose proof dbl_max_big. lra. Qed.

(** C123, true part: without variable selection a second fit of the object returns the same result and
    leaves the object as it is, provided the first one did not change the status.
    Missing: with variable selection, refuted below. *)
Theorem C123_repeat_partial : forall (C B : Type) (W : world C B) srt (o : object C) v o',
  o_auto_vars o = false -> flow_fit W srt o = Returned v o' -> o_terminated o' = o_terminated o ->
  flow_fit W srt o' = Returned v o'.
Proof. exact C123_repeat_main. Qed.
Print Assumptions C123_repeat_partial.
Example C123_case : exists v o', flow_fit demoW vsort (demoO false false true) = Returned v o' /\ o_terminated o' = false.
Proof. eexists _, _. split; reflexivity. Qed.

(** C123 is false with variable selection: whenever a fit has selected a single variable, fitting the object
    again (in any world whose regressions answer with numbers) is undefined. *)
Theorem C123_single_undefined : forall (C B : Type) (W W2 : world C B) srt (o : object C) v o', sorter srt ->
  o_auto_vars o = true -> w_stop0 W = false ->
  flow_fit W srt o = Returned v o' -> o_terminated o' = false -> length (o_selected o') = 1 ->
  w_stop0 W2 = false -> (forall k x w, exists a, w_vfit W2 k x w = (false, a) /\ a <> Some XN) ->
  flow_fit W2 srt o' = Undefined.
Proof. exact C123_again_main. Qed.
Print Assumptions C123_single_undefined.
Theorem C123_repeat_refuted : exists (W : world nat (list nat * R)) srt o v o', sorter srt /\
  flow_fit W srt o = Returned v o' /\ o_terminated o' = o_terminated o /\ flow_fit W srt o' = Undefined.
Proof.
  destruct (demo_run false) as (h & o' & E & S & X & T & A). exists demoW, vsort, (demoO true true false), (Coefficients ([5; 7], h)), o'.
  split; [apply vsort_sorter|]. split; auto. split; auto.
  refine (C123_again_main _ _ demoW demoW vsort _ _ o' vsort_sorter _ _ E T _ _ _); try reflexivity; [rewrite S; reflexivity|].
  intros k x w. eexists; split; [reflexivity|discriminate].
Qed.
Print Assumptions C123_repeat_refuted.

(** C123: variable selection of a matrix with no candidate column is undefined. *)
Theorem C123_no_candidate : forall (C B : Type) (W : world C B) srt (o : object C), sorter srt ->
  o_auto_vars o = true -> w_stop0 W = false ->
  length (o_x o) <= (if o_intercept o then 1 else 0) -> flow_fit W srt o = Undefined.
Proof. exact C123_no_candidate_main. Qed.
Print Assumptions C123_no_candidate.

(** C124, true part: with the default bounds a fixed bandwidth is positive and below the largest distance,
    and an adaptive one is a whole number when there are 20 observations or more.
    Missing: the adaptive one lies between 20 and the number of observations; refuted below. *)
Theorem C124_defaults_partial : forall (C B : Type) (W : world C B) srt (o : object C) b o', sorter srt ->
  flow_fit W srt o = Returned (Coefficients b) o' ->
  o_auto_bw o = true -> o_lower o = None -> o_upper o = None -> o_terminated o' = false ->
  (wadaptive (o_weight o) = false -> (0 < w_maxd W)%R -> (0 < wvalue (o_weight o') < w_maxd W)%R) /\
  (wadaptive (o_weight o) = true -> 20 <= w_n W -> integer (wvalue (o_weight o'))).
Proof.
  exact (fun C B W srt o b o' So H A L U T => conj
    (fun F M => C124_fixed_main C B W srt o b o' So H (conj A (conj L U)) T F M)
    (fun F M => C124_adaptive_main C B W srt o b o' So H (conj A (conj L U)) T F M)).
Qed.
Print Assumptions C124_defaults_partial.
Example C124_case : (exists b o', flow_fit demoW vsort (demoO true true false) = Returned (Coefficients b) o' /\ o_terminated o' = false) /\
  wadaptive (o_weight (demoO true true false)) = false /\ (0 < w_maxd demoW)%R.
Proof. destruct (demo_run false) as (h & o' & E & _ & _ & T & _). cbn. split; [eauto|]. split; [reflexivity|lra]. Qed.
(** With fewer than 20 observations and a flat criterion the adaptive bandwidth exceeds their number. *)
Theorem C124_few_observations : forall (C B : Type) (W : world C B) srt (o : object C) z,
  o_auto_bw o = true -> o_lower o = None -> o_upper o = None -> o_auto_vars o = false -> o_terminated o = false ->
  w_stop0 W = false -> w_stop2 W = false -> wadaptive (o_weight o) = true -> w_n W < 20 -> z <> DBL_MAX ->
  (forall k x w, w_bfit W k x w = (false, Some (XF z))) ->
  (forall x w, exists b, w_final W x w = Ok (b, false)) ->
  exists b o', flow_fit W srt o = Returned (Coefficients b) o' /\ o_terminated o' = false /\
    (INR (w_n W) < wvalue (o_weight o'))%R.
Proof. exact (fun C B W srt o z A L U => C124_small_main C B W srt o z (conj A (conj L U))). Qed.
Print Assumptions C124_few_observations.
Theorem C124_defaults_refuted : exists (W : world nat (list nat * R)) o b o', flow_fit W vsort o = Returned (Coefficients b) o' /\
  o_auto_bw o = true /\ o_lower o = None /\ o_upper o = None /\ o_terminated o' = false /\ wadaptive (o_weight o) = true /\
  (INR (w_n W) < wvalue (o_weight o'))%R.
Proof.
  destruct (C124_small_main _ _ demoW vsort (demoO false true true) 1) as (b & o' & E & T & L); try reflexivity.
  - repeat split; reflexivity.
  - cbn; lia.
  - pose proof dbl_max_big. lra.
  - intros; eexists; reflexivity.
  - exists demoW, (demoO false true true), b, o'. auto 10.
Qed.
Print Assumptions C124_defaults_refuted.

(** C125: the status Terminated is never reset by a fit. *)
Theorem C125_sticky : forall (C B : Type) (W : world C B) srt (o o' : object C), sorter srt ->
  (exists v, flow_fit W srt o = Returned v o') \/ flow_fit W srt o = Threw o' ->
  o_terminated o = true -> o_terminated o' = true.
Proof. exact C125_sticky_main. Qed.
Print Assumptions C125_sticky.
(** C125: a fit of an object with status Terminated, never interrupted itself, selects nothing: it returns
    the regression on all columns with the initial weight, whatever selections were asked for and whatever
    the regressions of the searches would answer. *)
Theorem C125_after_cancel : forall (C B : Type) (W : world C B) srt (o : object C), sorter srt -> o_terminated o = true ->
  w_stop0 W = false -> w_stop1 W = false -> w_stop2 W = false ->
  (o_auto_vars o = true -> (if o_intercept o then 1 else 0) < length (o_x o)) ->
  forall b st, w_final W (o_x o) (o_weight o) = Ok (b, st) ->
  exists o', flow_fit W srt o = Returned (Coefficients b) o' /\ o_x o' = o_x o /\ o_weight o' = o_weight o /\ o_terminated o' = true.
Proof. exact C125_after_cancel_main. Qed.
Print Assumptions C125_after_cancel.
(** C125 is false: the same fit selects a column when the status is Success and none after a cancelled run. *)
Theorem C125_refuted : exists (W : world nat (list nat * R)) o v1 o1 v2 o2, o_terminated o = false /\
  flow_fit W vsort o = Returned v1 o1 /\ o_x o1 = [5; 7] /\ o_terminated o1 = false /\
  flow_fit W vsort (set_terminated true o) = Returned v2 o2 /\ o_x o2 = [5; 6; 7].
Proof.
  destruct (demo_run false) as (h & o1 & E & S & X & T & A).
  destruct (C125_after_cancel_main _ _ demoW vsort (set_terminated true (demoO true true false))) with (b := ([5; 6; 7], 4%R)) (st := false)
    as (o2 & E2 & X2 & _); try reflexivity; [apply vsort_sorter|cbn; lia|].
  exists demoW, (demoO true true false), (Coefficients ([5; 7], h)), o1, (Coefficients ([5; 6; 7], 4%R)), o2. auto 10.
Qed.
Print Assumptions C125_refuted.

(** C126: when every regression of the variable selection fails, the run is undefined instead of failing. *)
Theorem C126_all_failed : forall (C B : Type) (W : world C B) srt (o : object C), sorter srt ->
  o_auto_vars o = true -> w_stop0 W = false -> o_terminated o = false -> (0 < o_threshold o)%R ->
  (forall k x w, w_vfit W k x w = (false, None)) -> flow_fit W srt o = Undefined.
Proof. exact C126_failed_main. Qed.
Print Assumptions C126_all_failed.
Example C126_case : flow_fit (mkWorld 19 10%R false false false (fun _ _ _ => (false, None)) (w_bfit demoW) (w_final demoW))
  vsort (demoO true true true) = Undefined.
Proof. apply C126_failed_main; try reflexivity; [apply vsort_sorter|cbn; lra]. Qed.
(** C126: one NaN among the q(q+1)/2 criteria makes the run undefined. *)
Theorem C126_nan : forall (C B : Type) (W : world C B) srt (o : object C) k, sorter srt ->
  o_auto_vars o = true -> w_stop0 W = false -> o_terminated o = false ->
  (forall j x w, fst (w_vfit W j x w) = false) ->
  (let q := length (o_x o) - (if o_intercept o then 1 else 0) in 2 * S k <= q * (q + 1)) ->
  (forall x w, snd (w_vfit W k x w) = Some XN) -> flow_fit W srt o = Undefined.
Proof. exact C126_nan_main. Qed.
Print Assumptions C126_nan.
Theorem C126_refuted : exists (W : world nat (list nat * R)) o, o_auto_vars o = true /\ w_stop0 W = false /\ o_terminated o = false /\
  (exists k x w, w_vfit W k x w = (false, Some XN)) /\ (exists k x w z, w_vfit W k x w = (false, Some (XF z))) /\
  flow_fit W vsort o = Undefined.
Proof.
  exists (mkWorld 19 10%R false false false (fun k _ _ => (false, Some (if Nat.eqb k 2 then XN else XF 1%R)))
    (w_bfit demoW) (w_final demoW)), (demoO true true true).
  repeat (split; [reflexivity|]). split; [exists 2, [], (mkWeight Gaussian true 1%R); reflexivity|].
  split; [exists 0, [], (mkWeight Gaussian true 1%R), 1%R; reflexivity|].
  apply (C126_nan_main _ _ _ _ _ 2); try reflexivity; apply vsort_sorter.
Qed.
Print Assumptions C126_refuted.

(** C126: the criterion used (AICc) is NaN exactly for a perfect fit whose trace of the hat matrix is n - 2. *)
Theorem C126_criterion_nan : forall (n p : nat) x b y s0, (0 < n)%nat -> (0 < INR n + s0)%R ->
  base_aicc n p x b y s0 = XN <->
  bigsum n (fun i => (y i - bigsum p (fun k => b i k * x i k)) ^ 2)%R = 0%R /\ (INR n - 2)%R = s0.
Proof. exact C126_criterion_main. Qed.
Print Assumptions C126_criterion_nan.

(** C127: the bandwidth of the object has no influence on the variables selected. *)
Theorem C127_bandwidth_ignored : forall (C B : Type) (W : world C B) srt (o o2 : object C) v v2 o' o2', sorter srt ->
  o_auto_vars o = true -> w_stop0 W = false ->
  (exists h l, o2 = set_weight (mkWeight (wkernel (o_weight o)) (wadaptive (o_weight o)) h) l o) ->
  flow_fit W srt o = Returned v o' -> flow_fit W srt o2 = Returned v2 o2' ->
  o_selected o2' = o_selected o' /\ o_x o2' = o_x o' /\ o_vlist o2' = o_vlist o'.
Proof. exact C127_ignored_main. Qed.
Print Assumptions C127_bandwidth_ignored.
(** C127: the weights used in the selection differ from 1 by at most 3 d / DBL_MAX (fixed) or
    3 n / DBL_MAX (adaptive), for every kernel: the models compared are global ones. *)
Theorem C127_global_weights : forall k (adaptive : bool) xs (ds : list R), xvals xs ds -> nonneg ds ->
  (if adaptive then (count_zero ds < length ds)%nat /\ (INR (length ds) < DBL_MAX)%R else Forall (fun d => (d < DBL_MAX)%R) ds) ->
  exists ws, returns_values (bw_weight k adaptive (XF DBL_MAX) xs) ws /\
    Forall2 (fun d w => (1 - 3 * ((if adaptive then INR (length ds) else d) / DBL_MAX) <= w <= 1)%R) ds ws.
Proof. exact C127_global_main. Qed.
Print Assumptions C127_global_weights.
Example C127_case : xvals [XF 0; XF 2] [0%R; 2%R] /\ nonneg [0%R; 2%R] /\ (count_zero [0%R; 2%R] < 2)%nat /\ (INR 2 < DBL_MAX)%R.
Proof.
  pose proof dbl_max_big. split; [repeat constructor|]. split; [repeat constructor; lra|]. split; [|cbn; lra].
  unfold count_zero. cbn. destruct (Req_EM_T 0 0); [|lra]. destruct (Req_EM_T 2 0); [lra|]. cbn. lia.
Qed.
