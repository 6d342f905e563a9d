(** C157: a GWRRobust object over several calls. *)
From Coq Require Import Reals Bool List Arith.
From Verif Require Import Outcome XReal KernelModel GoldModel VarModel VarSpec VarProofs GlmModel RobModel FlowModel FlowExample
  RobFlowModel RobFlowSpec RobFlowProofs RobFlowCases.
Import ListNotations.
Local Open Scope R_scope.

(** Without bounds for the bandwidth, a robust fit that returns chooses the same columns, selected variables and bandwidth, and lists
    the same criteria, as a basic fit that returns in the same circumstances. *)
Theorem C157_same_selection : forall C B (G : setting C B) srt r v r' v2 o2,
  o_lower (r_base r) = None -> o_upper (r_base r) = None ->
  robust_fit G srt r = RReturned v r' -> flow_fit (s_world G) srt (r_base r) = Returned v2 o2 -> same_choice (r_base r') o2.
Proof. exact selects_main. Qed.
Print Assumptions C157_same_selection.
Example C157_same_selection_case : (exists h r', robust_fit demoG vsort (mkRobust (demoO true true true) (Some true)) = RReturned (Coefficients ([5; 7]%nat, h)) r' /\
    o_selected (r_base r') = [2%nat] /\ o_x (r_base r') = [5; 7]%nat) /\
  exists h o', flow_fit (s_world demoG) vsort (demoO true true true) = Returned (Coefficients ([5; 7]%nat, h)) o' /\
    o_selected o' = [2%nat] /\ o_x o' = [5; 7]%nat /\ o_terminated o' = false /\ o_auto_vars o' = true.
Proof. exact (conj (demo_robust true) (demo_run true)). Qed.

(** The coefficients returned are those of the robust calibration on the columns and weight the object holds afterwards, starting from a
    mask of ones, of the kind chosen with setFiltered. *)
Theorem C157_result : forall C B (G : setting C B) srt r b r', robust_fit G srt r = RReturned (Coefficients b) r' ->
  exists f made, r_filtered r = Some f /\ let o := r_base r' in
  calibrate B (w_n (s_world G)) (s_fit G (o_x o) (o_weight o)) (s_resid G (o_x o)) (s_stud G (o_x o) (o_weight o)) (s_stop G) (s_zero G) f = Ok (b, made).
Proof. exact result_main. Qed.
Print Assumptions C157_result.

(** Without automatic selection, the answer of a fit after any calls is that of a new object with the same settings and the
    value last given to setFiltered: no call leaves anything behind. *)
Theorem C157_history : forall C B (G : setting C B) srt (cs : list (call C B)) o r,
  o_auto_vars o = false -> o_auto_bw o = false -> run srt cs (fresh o) = Some r ->
  r_filtered r = filtered_last cs /\ answer (robust_fit G srt r) = answer (robust_fit G srt (mkRobust o (filtered_last cs))).
Proof. exact history_main. Qed.
Print Assumptions C157_history.
Example C157_history_case : forall ad, o_auto_vars (spikeO ad) = false /\ o_auto_bw (spikeO ad) = false /\
  exists r, run vsort spike_calls (fresh (spikeO ad)) = Some r /\ r_filtered r = Some true /\ run vsort [Predict spikeP] (fresh (spikeO ad)) <> None.
Proof. exact (fun ad => conj eq_refl (conj eq_refl (spike_history ad))). Qed.

(** mFiltered has no initial value: an object on which setFiltered was never called returns no coefficients; without automatic
    selection, and not stopped at the start, its fit is undefined. *)
Theorem C157_unset_refuted : forall C B (G : setting C B) srt (cs : list (call C B)) o r,
  run srt cs (fresh o) = Some r -> filtered_last cs = None ->
  (forall b r', robust_fit G srt r <> RReturned (Coefficients b) r') /\
  (o_auto_vars o = false -> o_auto_bw o = false -> w_stop0 (s_world G) = false -> robust_fit G srt r = RUndefined).
Proof. exact unset_main. Qed.
Print Assumptions C157_unset_refuted.

(** Bounds for the bandwidth have no effect ... *)
Theorem C157_bounds_refuted : forall C B (G : setting C B) srt x ic av ab th w sel vl bl t f l u l' u',
  answer (robust_fit G srt (mkRobust (mkObject x ic av ab th l u w sel vl bl t) f)) =
  answer (robust_fit G srt (mkRobust (mkObject x ic av ab th l' u' w sel vl bl t) f)).
Proof. exact (fun C B G srt x ic av ab th w sel vl bl t f l u l' u' => @bounds_main C B G srt (mkObject x ic av ab th l' u' w sel vl bl t) f l u). Qed.
Print Assumptions C157_bounds_refuted.
(** ... and are kept. *)
Theorem C157_bounds_kept : forall C B (G : setting C B) srt r r',
  (exists v, robust_fit G srt r = RReturned v r') \/ robust_fit G srt r = RThrew r' ->
  o_lower (r_base r') = o_lower (r_base r) /\ o_upper (r_base r') = o_upper (r_base r).
Proof. exact bounds_kept. Qed.
Print Assumptions C157_bounds_kept.

(** Predicting at the locations of the data does not give the fitted coefficients: of 17 observations 0, ..., 0, 1 with equal weights and an
    intercept only, the fit drops the last one and returns 0, the prediction 1/17. *)
Theorem C157_predict_refuted : exists b r1 b' r2,
  robust_fit spikeG vsort (mkRobust (spikeO true) (Some true)) = RReturned (Coefficients b) r1 /\
  robust_predict spikeP r1 = RReturned (Coefficients b') r2 /\
  (forall x w, p_fit spikeP x w = let* c := s_fit spikeG x w (fun _ => XF 1) in Ok (c, false)) /\
  xval b = Some 0 /\ xval b' = Some (1 / 17).
Proof.
  exact (match spike_fit vsort true with ex_intro _ b (ex_intro _ r1 (conj E (conj V _))) =>
         match spike_predict r1 with ex_intro _ b' (ex_intro _ r2 (conj E' V')) =>
         ex_intro _ b (ex_intro _ r1 (ex_intro _ b' (ex_intro _ r2 (conj E (conj E' (conj (fun _ _ => eq_refl) (conj V V')))))))
         end end).
Qed.
Print Assumptions C157_predict_refuted.
