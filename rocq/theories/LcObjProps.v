(** C163: a local ridge regression object over several calls. *)
From Coq Require Import Reals Bool List Arith Lra Lia.
From Verif Require Import Outcome XReal KernelModel GoldModel LcObjModel LcObjSpec LcObjProofs LcObjCases.
Import ListNotations.
Local Open Scope R_scope.

Section Object.
Variables (Crd XY Mat Diag Par Tel : Type).
Variable rows : Crd -> nat.
Variable columns : XY -> nat.
Variable cells : XY -> nat.
Variable maxdist : option (Crd * Crd) -> R.
Variable zeros : nat -> nat -> Mat.
Variable cv : Tel -> nat -> bool -> XY -> option (Crd * Crd) -> Par -> weight -> bool * option xd.
Variable reg : Tel -> bool -> XY -> option (Crd * Crd) -> Par -> weight -> outcome (Mat * (R * R) * bool).
Variable lost : Tel -> XY -> option (Crd * Crd) -> Par -> weight -> R * R.
Variable pred : Tel -> XY -> option (Crd * Crd) -> Par -> weight -> outcome (Mat * bool).
Variable skipped : Tel -> bool.
Variable diagnose : Crd -> XY -> Mat -> R * R -> Diag.
Notation object := (object Crd XY Mat Diag Par).
Notation fit := (fit rows columns maxdist cv reg lost diagnose).
Notation predict := (predict rows columns cells zeros pred skipped).
Notation step := (step rows columns cells maxdist zeros cv reg lost pred skipped diagnose).
Notation run := (run rows columns cells maxdist zeros cv reg lost pred skipped diagnose).

(** Whatever was called before, a call answers as on any other object with the same settings and status, and leaves equal settings. *)
Theorem C163_again : forall cs (o p : object) c, same_settings (run cs o) p ->
  fst (step c (run cs o)) = fst (step c p) /\ same_settings (snd (step c (run cs o))) (snd (step c p)).
Proof. exact (again_main Crd XY Mat Diag Par Tel rows columns cells maxdist zeros cv reg lost pred skipped diagnose). Qed.

(** The result of a fit belongs to the object's data, its coordinates as focus and data points, and the weight it ends up with; betas() shows it, and the
    diagnostics are those of the sums the object then holds. *)
Theorem C163_result : forall (o : object) t stop,
  let o' := snd (fit t stop o) in
  match fst (fit t stop o) with
  | Matrix m => exists tr st, reg t (o_omp o) (o_xy o) (Some (o_crd o, o_crd o)) (o_par o) (o_weight o') = Ok (m, tr, st) /\ o_betas o' = m /\
      o_traces o' = (if o_omp o then tr else plus (o_traces o) tr) /\ o_diag o' = diagnose (o_crd o) (o_xy o) m (o_traces o') /\ (st = true -> o_term o' = true)
  | Zeros r c => r = rows (o_crd o) /\ c = columns (o_xy o) /\ o_term o' = true
  | Done => False
  | _ => True
  end.
Proof. exact (result_main Crd XY Mat Diag Par Tel rows columns maxdist cv reg lost diagnose). Qed.

(** Without selection: nothing but the distance, the sums, the coefficients, the diagnostics and the status changes. *)
Theorem C163_plain : forall (o : object) t stop m tr st, o_auto o = false -> quiet stop ->
  reg t (o_omp o) (o_xy o) (Some (o_crd o, o_crd o)) (o_par o) (o_weight o) = Ok (m, tr, st) ->
  let tr' := if o_omp o then tr else plus (o_traces o) tr in
  fit t stop o = (Matrix m, Object (o_crd o) (o_xy o) (o_par o) (o_weight o) (Some (o_crd o, o_crd o)) false (o_omp o) tr' m
    (diagnose (o_crd o) (o_xy o) m tr') (o_blist o) (o_term o || st)).
Proof. exact (plain_main Crd XY Mat Diag Par Tel rows columns maxdist cv reg lost diagnose). Qed.

(** A second fit, also one with selection, returns the same coefficients and keeps settings, weight and status.  Missing: the diagnostics, refuted below. *)
Theorem C163_repeat_partial : forall (o o' : object) t stop m, quiet stop -> fit t stop o = (Matrix m, o') -> o_term o' = o_term o ->
  fst (fit t stop o') = Matrix m /\ same_settings o' (snd (fit t stop o')).
Proof. exact (repeat_main Crd XY Mat Diag Par Tel rows columns maxdist cv reg lost diagnose). Qed.

(** The diagnostics of a second serial fit are not those of the first: after k + 1 fits they are computed from k + 1 times the sums of one fit. *)
Theorem C163_accumulates_refuted : forall k (o : object) t stop m tr, o_auto o = false -> o_omp o = false -> o_traces o = (0, 0) -> quiet stop ->
  reg t false (o_xy o) (Some (o_crd o, o_crd o)) (o_par o) (o_weight o) = Ok (m, tr, false) ->
  let o' := run (repeat (Fit t stop) (S k)) o in
  o_betas o' = m /\ o_traces o' = times (S k) tr /\ o_diag o' = diagnose (o_crd o) (o_xy o) m (times (S k) tr).
Proof. exact (many_main Crd XY Mat Diag Par Tel rows columns cells maxdist zeros cv reg lost pred skipped diagnose). Qed.

(** Fits and predictions keep what the user set; the bandwidth only changes with selection.  Predictions keep the diagnostics. *)
Theorem C163_kept : forall (o : object) t stop loc,
  kept o (snd (fit t stop o)) /\ kept o (snd (predict t loc stop o)) /\ o_weight (snd (predict t loc stop o)) = o_weight o /\ o_diag (snd (predict t loc stop o)) = o_diag o.
Proof. exact (kept_main Crd XY Mat Diag Par Tel rows columns cells maxdist zeros cv reg lost pred skipped diagnose). Qed.

(** Each setter stores its argument and changes nothing else; a new weight has a distance without points. *)
Theorem C163_setters : forall c d p w a b (o : object),
  let set s v := fst (step s o) = Done /\ settings (snd (step s o)) = v /\ outputs (snd (step s o)) = outputs o in
  set (SetCoords c) (c, o_xy o, o_par o, o_weight o, o_dist o, o_auto o, o_omp o) /\
  set (SetData d) (o_crd o, d, o_par o, o_weight o, o_dist o, o_auto o, o_omp o) /\
  set (SetPar p) (o_crd o, o_xy o, p, o_weight o, o_dist o, o_auto o, o_omp o) /\
  set (SetWeight w) (o_crd o, o_xy o, o_par o, w, None, o_auto o, o_omp o) /\
  set (SetAuto a) (o_crd o, o_xy o, o_par o, o_weight o, o_dist o, a, o_omp o) /\
  set (SetOmp b) (o_crd o, o_xy o, o_par o, o_weight o, o_dist o, o_auto o, b).
Proof. exact (setters_main Crd XY Mat Diag Par Tel rows columns cells maxdist zeros cv reg lost pred skipped diagnose). Qed.

(** No call, setters included, ends the status Terminated. *)
Theorem C163_sticky : forall cs (o : object), o_term o = true -> o_term (run cs o) = true.
Proof. exact (sticky_main Crd XY Mat Diag Par Tel rows columns cells maxdist zeros cv reg lost pred skipped diagnose). Qed.
(** On such an object a fit asked to select a bandwidth does not: it returns what a fit without selection returns, with an empty list of bandwidths. *)
Theorem C163_disabled_refuted : forall (o : object) t stop, o_term o = true -> o_auto o = true -> quiet stop ->
  (forall k w, snd (cv t k (o_omp o) (o_xy o) (Some (o_crd o, o_crd o)) (o_par o) w) <> None) ->
  fst (fit t stop o) = fst (fit t stop (snd (step (SetAuto false) o))) /\ o_weight (snd (fit t stop o)) = o_weight o /\
  (forall m, fst (fit t stop o) = Matrix m -> o_blist (snd (fit t stop o)) = []).
Proof. exact (disabled_main Crd XY Mat Diag Par Tel rows columns cells maxdist zeros cv reg lost pred skipped diagnose). Qed.

(** A serial prediction uses the locations as focus points and the object's coordinates as data points, with the current weight; betas() then shows the
    coefficients at the locations, while sums and diagnostics are still those of the last fit. *)
Theorem C163_predict : forall (o : object) t loc stop m st, o_omp o = false -> quiet stop ->
  pred t (o_xy o) (Some (loc, o_crd o)) (o_par o) (o_weight o) = Ok (m, st) ->
  predict t loc stop o = (Matrix m, Object (o_crd o) (o_xy o) (o_par o) (o_weight o) (Some (loc, o_crd o)) (o_auto o) false (o_traces o) m (o_diag o) (o_blist o) (o_term o || st)).
Proof. exact (predict_main Crd XY Mat Diag Par Tel rows columns cells zeros pred skipped). Qed.
(** A cancelled prediction does not return one row per location: always one per data point. *)
Theorem C163_shape : forall (o : object) t loc stop r c, fst (predict t loc stop o) = Zeros r c -> r = rows (o_crd o) /\ c = columns (o_xy o).
Proof. exact (shape_main Crd XY Mat Diag Par Tel rows columns cells zeros pred skipped). Qed.
Theorem C163_shape_refuted : forall (o : object) t loc stop, stop 0%nat = true -> rows loc <> rows (o_crd o) ->
  exists r, fst (predict t loc stop o) = Zeros r (columns (o_xy o)) /\ r <> rows loc.
Proof. exact (shape_refuted_main Crd XY Mat Diag Par Tel rows columns cells zeros pred skipped). Qed.
(** A parallel prediction at any location at all is undefined unless the telegram stops it; at no location it clears the sums of the fit. *)
Theorem C163_omp_undefined : forall (o : object) t loc stop, o_omp o = true -> stop 0%nat = false ->
  ((0 < rows loc)%nat -> skipped t = false -> fst (predict t loc stop o) = Undefined) /\
  (rows loc = 0%nat -> o_traces (snd (predict t loc stop o)) = (0, 0)).
Proof. exact (omp_main Crd XY Mat Diag Par Tel rows columns cells zeros pred skipped). Qed.

(** A fit cancelled after the regression: coefficients and sums are new, the diagnostics are of the fit before. *)
Theorem C163_late_refuted : forall (o : object) t stop m tr st, o_auto o = false -> stop 0%nat = false -> stop 2%nat = true ->
  reg t (o_omp o) (o_xy o) (Some (o_crd o, o_crd o)) (o_par o) (o_weight o) = Ok (m, tr, st) ->
  let r := fit t stop o in
  fst r = Zeros (rows (o_crd o)) (columns (o_xy o)) /\ o_betas (snd r) = m /\ o_traces (snd r) = (if o_omp o then tr else plus (o_traces o) tr) /\ o_diag (snd r) = o_diag o.
Proof. exact (late_main Crd XY Mat Diag Par Tel rows columns maxdist cv reg lost diagnose). Qed.
(** A fit that throws in the regression leaves coefficients, diagnostics and status, but keeps the sums added before. *)
Theorem C163_thrown_refuted : forall (o : object) t stop, o_auto o = false -> stop 0%nat = false ->
  reg t (o_omp o) (o_xy o) (Some (o_crd o, o_crd o)) (o_par o) (o_weight o) = Throw ->
  let r := fit t stop o in
  fst r = Threw /\ o_betas (snd r) = o_betas o /\ o_diag (snd r) = o_diag o /\ o_term (snd r) = o_term o /\
  o_traces (snd r) = plus (o_traces o) (lost t (o_xy o) (Some (o_crd o, o_crd o)) (o_par o) (o_weight o)).
Proof. exact (thrown_main Crd XY Mat Diag Par Tel rows columns maxdist cv reg lost diagnose). Qed.

(** The bandwidths tried are not all numbers of neighbours there are: with at most 17 points an adaptive search lists one above their number. *)
Theorem C163_small_refuted : forall (o : object) t stop m g, o_auto o = true -> wadaptive (o_weight o) = true -> (rows (o_crd o) <= 17)%nat -> o_term o = false -> quiet stop ->
  (forall k w, cv t k (o_omp o) (o_xy o) (Some (o_crd o, o_crd o)) (o_par o) w = (false, Some (XF (g w)))) -> (forall w, Rabs (g w) < DBL_MAX) ->
  fst (fit t stop o) = Matrix m ->
  exists b v, In (b, v) (o_blist (snd (fit t stop o))) /\ b > INR (rows (o_crd o)).
Proof. exact (small_main Crd XY Mat Diag Par Tel rows columns maxdist cv reg lost diagnose). Qed.
End Object.
Print Assumptions C163_again.
Print Assumptions C163_result.
Print Assumptions C163_plain.
Print Assumptions C163_repeat_partial.
Print Assumptions C163_accumulates_refuted.
Print Assumptions C163_kept.
Print Assumptions C163_setters.
Print Assumptions C163_sticky.
Print Assumptions C163_disabled_refuted.
Print Assumptions C163_predict.
Print Assumptions C163_shape.
Print Assumptions C163_shape_refuted.
Print Assumptions C163_omp_undefined.
Print Assumptions C163_late_refuted.
Print Assumptions C163_thrown_refuted.
Print Assumptions C163_small_refuted.

(** A concrete object of nine points, three columns, weight 9: the hypotheses hold, and two fits do report different diagnostics. *)
Example C163_case : quiet lc_quiet /\ o_traces (lc_object 9 false false) = (0, 0) /\
  fst (lc_fit false lc_quiet (lc_object 9 false false)) = Matrix (Some (9%nat, 9%nat), 9, false) /\ o_term (snd (lc_fit false lc_quiet (lc_object 9 false false))) = false.
Proof. exact (conj lc_quiet_quiet (conj eq_refl (conj eq_refl eq_refl))). Qed.
Example C163_case_accumulates : o_diag (lc_run [Fit false lc_quiet] (lc_object 9 false false)) = 95 /\ o_diag (lc_run [Fit false lc_quiet; Fit false lc_quiet] (lc_object 9 false false)) = 90.
Proof. exact lc_twice. Qed.
Example C163_case_small : exists m, fst (lc_fit false lc_quiet (lc_object 9 true false)) = Matrix m.
Proof. exact lc_small. Qed.
Example C163_case_small_valid : (forall k w, lc_cv false k false 3 (Some (9, 9)%nat) 0 w = (false, Some (XF (sin (wvalue w))))) /\ forall w, Rabs (sin (wvalue w)) < DBL_MAX.
Proof. exact lc_valid. Qed.
Example C163_case_terminated : o_term (lc_run [Fit false (fun _ => true)] (lc_object 9 true false)) = true /\ forall k w, snd (lc_cv false k false 3 (Some (9, 9)%nat) 0 w) <> None.
Proof. exact lc_terminated. Qed.
Example C163_case_predict : fst (lc_predict false 4%nat lc_quiet (lc_object 9 false false)) = Matrix (Some (4%nat, 9%nat), 9, true) /\
  fst (lc_predict false 4%nat (fun _ => true) (lc_object 9 false false)) = Zeros 9 3.
Proof. exact (conj eq_refl eq_refl). Qed.
Example C163_case_throws : lc_reg true false 3 (Some (9, 9)%nat) 0 (mkWeight Gaussian true 9) = Throw.
Proof. exact eq_refl. Qed.
