(** C162: a GWDR object over several calls. *)
From Coq Require Import Reals Bool List Arith ZArith.
From Verif Require Import Outcome XReal KernelModel DistModel VarModel VarSpec VarProofs GwdrModel GdObjModel GdObjSpec GdObjProofs GdObjMain GdObjCases.
Import ListNotations.
Local Open Scope R_scope.

Section Object.
Variables (C Y Mat Se Diag Tel : Type).
Variable srt : list (list nat * xd) -> list (list nat * xd).
Variable global_aicc : list C -> Y -> option xd.
Variable local_aicc : Tel -> nat -> list C -> Y -> list dimension -> bool * option xd.
Variable bw_crit : Tel -> list C -> Y -> list dimension -> option xd.
Variable simplex : Tel -> list R -> (list R -> xd) -> gsl.
Variable fitting : Tel -> list C -> Y -> list dimension -> outcome (Mat * Se * bool).
Variable spoiled : Tel -> list C -> Y -> list dimension -> Se -> Se.
Variable report : list C -> Y -> Mat -> Se -> Diag * Se.
Notation object := (object C Y Mat Se Diag).
Notation fit := (fit srt global_aicc local_aicc bw_crit simplex fitting spoiled report).
Notation step := (step srt global_aicc local_aicc bw_crit simplex fitting spoiled report).
Notation run := (run srt global_aicc local_aicc bw_crit simplex fitting spoiled report).

(** Whatever was called before, a call answers as on any other object with the same settings and status, and leaves equal settings; one weight
    for each column of coordinates.  Missing: other numbers of weights, refuted below. *)
Theorem C162_again_partial : forall cs (o p : object) c, same_settings (run cs o) p -> length (o_dims p) = length (o_coords p) ->
  fst (step c (run cs o)) = fst (step c p) /\ same_settings (snd (step c (run cs o))) (snd (step c p)).
Proof. exact (again_main C Y Mat Se Diag Tel srt global_aicc local_aicc bw_crit simplex fitting spoiled report). Qed.

(** The result belongs to the columns, bandwidths and coordinates the object ends up with, and is what betas() and the diagnostics then show. *)
Theorem C162_result : forall (o : object) t stop,
  let o' := snd (fit t stop o) in
  match fst (fit t stop o) with
  | Matrix m => exists se st, fitting t (o_x o') (o_y o') (o_dims o') = Ok (m, se, st) /\ o_betas o' = m /\ (o_diag o', o_se o') = report (o_x o') (o_y o') m se /\ (st = true -> o_term o' = true)
  | Zeros r c => r = o_rows o' /\ c = length (o_x o') /\ o_term o' = true
  | Done => False
  | _ => True
  end.
Proof. exact (result_main C Y Mat Se Diag Tel srt global_aicc local_aicc bw_crit simplex fitting spoiled report). Qed.

(** Without selections: the fitting on the current columns with the coordinates in place, and nothing else changes. *)
Theorem C162_plain : forall (o : object) t stop m se st dg se', o_auto_vars o = false -> o_auto_bw o = false -> matching o -> quiet stop ->
  fitting t (o_x o) (o_y o) (located (o_coords o) (o_dims o)) = Ok (m, se, st) -> report (o_x o) (o_y o) m se = (dg, se') ->
  fit t stop o = (Matrix m, Object (o_coords o) (o_rows o) (o_x o) (o_y o) (located (o_coords o) (o_dims o)) (o_intercept o) false false (o_threshold o)
    (o_maxiter o) m se' dg (o_selected o) (o_vlist o) (o_term o || st)).
Proof. exact (plain_main C Y Mat Se Diag Tel srt global_aicc local_aicc bw_crit simplex fitting spoiled report). Qed.

(** Without selections a second fit returns the same and leaves the object as it is.  Missing: with selections, refuted below. *)
Theorem C162_repeat_partial : forall (o o' : object) t stop m, o_auto_vars o = false -> o_auto_bw o = false -> matching o -> quiet stop ->
  fit t stop o = (Matrix m, o') -> o_term o' = o_term o -> fit t stop o' = (Matrix m, o').
Proof. exact (repeat_main C Y Mat Se Diag Tel srt global_aicc local_aicc bw_crit simplex fitting spoiled report). Qed.

(** A fit keeps what the user set, except columns (with variable selection) and bandwidths (with optimisation). *)
Theorem C162_kept : forall (o : object) t stop, sorter srt -> kept o (snd (fit t stop o)) /\
  (o_auto_bw o = false -> map chosen (o_dims (snd (fit t stop o))) = map chosen (o_dims o)) /\
  (o_auto_vars o = false -> o_x (snd (fit t stop o)) = o_x o).
Proof. exact (kept_main C Y Mat Se Diag Tel srt global_aicc local_aicc bw_crit simplex fitting spoiled report). Qed.
(** Over any calls that set no independent variables the columns only become fewer. *)
Theorem C162_columns : forall cs (o : object), sorter srt -> (forall c, In c cs -> ~ sets_x c) ->
  incl (o_x (run cs o)) (o_x o) /\ (length (o_x (run cs o)) <= length (o_x o))%nat.
Proof. exact (columns_main C Y Mat Se Diag Tel srt global_aicc local_aicc bw_crit simplex fitting spoiled report). Qed.
(** Over any calls that set no weights, number, kinds and kernels of the weights stay, and the bandwidths if optimisation is never on. *)
Theorem C162_weights : forall cs (o : object), sorter srt -> (forall c, In c cs -> ~ sets_weights c) ->
  map kind (o_dims (run cs o)) = map kind (o_dims o) /\
  ((forall c, In c cs -> ~ turns_on c) -> o_auto_bw o = false -> map chosen (o_dims (run cs o)) = map chosen (o_dims o)).
Proof. exact (dims_main C Y Mat Se Diag Tel srt global_aicc local_aicc bw_crit simplex fitting spoiled report). Qed.

(** The columns after variable selection: the intercept and the columns selectedIndepVars() lists, in its order, each a distinct column of before. *)
Theorem C162_selection : forall (o o' : object) t stop m, sorter srt -> o_auto_vars o = true -> fit t stop o = (Matrix m, o') ->
  map Some (o_x o') = map (nth_error (o_x o)) ((if o_intercept o then [0%nat] else []) ++ o_selected o') /\
  NoDup (o_selected o') /\ o_selected o' <> [] /\ (forall i, In i (o_selected o') -> (if o_intercept o then 1 else 0) <= i < length (o_x o))%nat.
Proof. exact (selection_main C Y Mat Se Diag Tel srt global_aicc local_aicc bw_crit simplex fitting spoiled report). Qed.
(** "A fit can be repeated" is false with variable selection: after a single variable was selected the next fit is undefined. *)
Theorem C162_single_refuted : forall (o o' : object) t stop m v t2 stop2, sorter srt -> o_auto_vars o = true -> matching o ->
  fit t stop o = (Matrix m, o') -> o_selected o' = [v] -> o_term o' = false ->
  (forall k x y ds, fst (local_aicc t2 k x y ds) = false) -> stop2 0%nat = false -> fst (fit t2 stop2 o') = Undefined.
Proof. exact (single_main C Y Mat Se Diag Tel srt global_aicc local_aicc bw_crit simplex fitting spoiled report). Qed.

(** After an optimised fit every bandwidth, also a fixed one, is a whole number. *)
Theorem C162_whole : forall (o o' : object) t stop m, sorter srt -> (forall s f k, length (g_x (simplex t s f) k) = length s) -> o_auto_bw o = true ->
  fit t stop o = (Matrix m, o') -> forall b, In b (map d_bw (o_dims o')) -> exists k : nat, b = INR k.
Proof. exact (whole_main C Y Mat Se Diag Tel srt global_aicc local_aicc bw_crit simplex fitting spoiled report). Qed.
(** "A fit that throws leaves the settings" is false: when the minimiser reports an error after its first step, the bandwidths have already been replaced. *)
Theorem C162_failed_refuted : forall (o : object) t stop xs code, o_auto_vars o = false -> o_auto_bw o = true -> length (o_dims o) = length (o_coords o) -> o_dims o <> [] ->
  (forall d, In d (o_dims o) -> d_adaptive d = true) -> quiet stop -> length xs = length (o_dims o) -> code <> 0%Z -> code <> (-2)%Z ->
  (forall s f, let g := simplex t s f in g_status g 0 = 0%Z /\ g_status g 1 = 0%Z /\ g_test g 1 = code /\ g_x g 1 = xs) ->
  fst (fit t stop o) = Threw /\ Forall2 (fun x b => rounds_to (Rabs x * INR (o_rows o)) b) xs (map d_bw (o_dims (snd (fit t stop o)))).
Proof. exact (failed_main C Y Mat Se Diag Tel srt global_aicc local_aicc bw_crit simplex fitting spoiled report). Qed.
(** A fit that throws leaves coefficients and diagnostics. *)
Theorem C162_threw : forall (o : object) t stop, fst (fit t stop o) = Threw ->
  o_betas (snd (fit t stop o)) = o_betas o /\ o_diag (snd (fit t stop o)) = o_diag o.
Proof. exact (threw_main C Y Mat Se Diag Tel srt global_aicc local_aicc bw_crit simplex fitting spoiled report). Qed.

(** Nothing resets the status. *)
Theorem C162_sticky : forall cs (o : object), sorter srt -> o_term o = true -> o_term (run cs o) = true.
Proof. exact (sticky_main C Y Mat Se Diag Tel srt global_aicc local_aicc bw_crit simplex fitting spoiled report). Qed.
(** "The optimised bandwidths depend on the data" is false after any cancelled call: other data of the same shape get the same bandwidths. *)
Theorem C162_blind_refuted : forall (o : object) t stop x y, o_auto_vars o = false -> o_auto_bw o = true -> o_term o = true -> length x = length (o_x o) ->
  map d_bw (o_dims (snd (fit t stop (run [SetX x; SetY y] o)))) = map d_bw (o_dims (snd (fit t stop o))).
Proof. exact (blind_main C Y Mat Se Diag Tel srt global_aicc local_aicc bw_crit simplex fitting spoiled report). Qed.
(** "A cancelled fit changes no result" is false: stopped at its end it returns zeros, while betas() shows the new coefficients beside the old diagnostics. *)
Theorem C162_late_refuted : forall (o : object) t stop m se st, o_auto_vars o = false -> o_auto_bw o = false -> matching o -> stop 0%nat = false -> stop 4%nat = true ->
  fitting t (o_x o) (o_y o) (located (o_coords o) (o_dims o)) = Ok (m, se, st) ->
  fst (fit t stop o) = Zeros (o_rows o) (length (o_x o)) /\ o_betas (snd (fit t stop o)) = m /\ o_diag (snd (fit t stop o)) = o_diag o.
Proof. exact (late_main C Y Mat Se Diag Tel srt global_aicc local_aicc bw_crit simplex fitting spoiled report). Qed.

(** "A fit uses the current coordinates" is false with more weights than columns of coordinates: after setCoords with one column the second
    dimension keeps the old column; without the earlier fit the same call throws. *)
Theorem C162_stale_refuted : forall (o : object) t stop c1 c2 c d1 d2 m se st m' se' st', o_auto_vars o = false -> o_auto_bw o = false -> quiet stop ->
  o_dims o = [d1; d2] -> o_coords o = [c1; c2] -> length c1 = o_rows o -> length c2 = o_rows o -> length c = o_rows o -> (0 < o_rows o)%nat ->
  fitting t (o_x o) (o_y o) (located [c1; c2] [d1; d2]) = Ok (m, se, st) ->
  fitting t (o_x o) (o_y o) (located [c; c2] [d1; d2]) = Ok (m', se', st') ->
  fst (step (Fit t stop) (run [Fit t stop; SetCoords (o_rows o) [c]] o)) = Matrix m' /\
  fst (step (Fit t stop) (run [Fit t stop; SetCoords (o_rows o) [c]; SetWeights [d1; d2]] o)) = Threw.
Proof. exact (stale_main C Y Mat Se Diag Tel srt global_aicc local_aicc bw_crit simplex fitting spoiled report). Qed.
(** Fewer weights than columns of coordinates: undefined. *)
Theorem C162_fewer_undefined : forall (o : object) t stop, (length (o_dims o) < length (o_coords o))%nat -> stop 0%nat = false -> fit t stop o = (Undefined, o).
Proof. exact (fewer_main C Y Mat Se Diag Tel srt global_aicc local_aicc bw_crit simplex fitting spoiled report). Qed.

(** predict returns zeros for every location and changes nothing. *)
Theorem C162_predict : forall cs (o : object) l, step (Predict l) (run cs o) = (Zeros l (length (o_x (run cs o))), run cs o).
Proof. exact (fun cs o l => eq_refl). Qed.
(** Each setter stores its argument and changes nothing else; the weights are copied without coordinates. *)
Theorem C162_setters : forall n cs x y ds b r k (o : object),
  let set s v := fst (step s o) = Done /\ gd_settings (snd (step s o)) = v /\ gd_outputs (snd (step s o)) = gd_outputs o in
  set (SetCoords n cs) (cs, n, o_x o, o_y o, o_dims o, o_intercept o, o_auto_bw o, o_auto_vars o, o_threshold o, o_maxiter o) /\
  set (SetX x) (o_coords o, o_rows o, x, o_y o, o_dims o, o_intercept o, o_auto_bw o, o_auto_vars o, o_threshold o, o_maxiter o) /\
  set (SetY y) (o_coords o, o_rows o, o_x o, y, o_dims o, o_intercept o, o_auto_bw o, o_auto_vars o, o_threshold o, o_maxiter o) /\
  set (SetWeights ds) (o_coords o, o_rows o, o_x o, o_y o, map (fun d => Dim (d_adaptive d) (d_kernel d) (d_bw d) None) ds, o_intercept o, o_auto_bw o, o_auto_vars o, o_threshold o, o_maxiter o) /\
  set (SetIntercept b) (o_coords o, o_rows o, o_x o, o_y o, o_dims o, b, o_auto_bw o, o_auto_vars o, o_threshold o, o_maxiter o) /\
  set (SetAutoBw b) (o_coords o, o_rows o, o_x o, o_y o, o_dims o, o_intercept o, b, o_auto_vars o, o_threshold o, o_maxiter o) /\
  set (SetAutoVars b) (o_coords o, o_rows o, o_x o, o_y o, o_dims o, o_intercept o, o_auto_bw o, b, o_threshold o, o_maxiter o) /\
  set (SetThreshold r) (o_coords o, o_rows o, o_x o, o_y o, o_dims o, o_intercept o, o_auto_bw o, o_auto_vars o, r, o_maxiter o) /\
  set (SetMaxIter k) (o_coords o, o_rows o, o_x o, o_y o, o_dims o, o_intercept o, o_auto_bw o, o_auto_vars o, o_threshold o, k).
Proof. exact (gd_setters_main C Y Mat Se Diag Tel srt global_aicc local_aicc bw_crit simplex fitting spoiled report). Qed.
End Object.
Print Assumptions C162_again_partial.
Print Assumptions C162_result.
Print Assumptions C162_plain.
Print Assumptions C162_repeat_partial.
Print Assumptions C162_kept.
Print Assumptions C162_columns.
Print Assumptions C162_weights.
Print Assumptions C162_selection.
Print Assumptions C162_single_refuted.
Print Assumptions C162_whole.
Print Assumptions C162_failed_refuted.
Print Assumptions C162_threw.
Print Assumptions C162_sticky.
Print Assumptions C162_blind_refuted.
Print Assumptions C162_late_refuted.
Print Assumptions C162_stale_refuted.
Print Assumptions C162_fewer_undefined.
Print Assumptions C162_predict.
Print Assumptions C162_setters.

(** "A fit can be repeated" is false with optimisation: with the minimiser of gd_simplex the same object gets bandwidths 6, then 12. *)
Theorem C162_drift_refuted :
  fst (gd_fit 0 tt gd_quiet (gd_object [5%nat] true false)) = Matrix ([5%nat], [6; 6]) /\
  fst (gd_fit 0 tt gd_quiet (gd_run 0 [Fit tt gd_quiet] (gd_object [5%nat] true false))) = Matrix ([5%nat], [12; 12]).
Proof. exact drift_main. Qed.
Print Assumptions C162_drift_refuted.

(** Concrete objects meeting the hypotheses above. *)
Example C162_case : matching (gd_object [5; 6; 7]%nat false true) /\ quiet gd_quiet /\ sorter vsort /\
  exists o', gd_fit 0 tt gd_quiet (gd_object [5; 6; 7]%nat false true) = (Matrix ([5; 7]%nat, [3; 3]), o') /\ o_selected o' = [2%nat] /\ o_x o' = [5; 7]%nat /\ o_term o' = false.
Proof. exact (conj (gd_matching _ _ _) (conj gd_quiet_quiet (conj vsort_sorter gd_selects))). Qed.
Example C162_case_failing : length (o_dims (gd_object [5%nat] true false)) = 2%nat /\ (forall d, In d (o_dims (gd_object [5%nat] true false)) -> d_adaptive d = true) /\
  forall s f, let g := gd_stuck tt s f in g_status g 0 = 0%Z /\ g_status g 1 = 0%Z /\ g_test g 1 = 27%Z /\ g_x g 1 = [/ 2; / 4].
Proof. exact (conj eq_refl (conj gd_adaptive (fun s f => conj eq_refl (conj eq_refl (conj eq_refl eq_refl))))). Qed.
Example C162_case_length : forall s f k, length (g_x (gd_simplex 0 tt s f) k) = length s.
Proof. exact (fun s f k => map_length _ s). Qed.
Example C162_case_blind : o_term (gd_run 0 [Fit tt (fun _ => true)] (gd_object [5%nat] true false)) = true.
Proof. exact gd_blind. Qed.
