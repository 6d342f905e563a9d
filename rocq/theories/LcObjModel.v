(** Model of a GWRLocalCollinearity object (local ridge regression) over several calls.
    Source: src/gwmodelpp/GWRLocalCollinearity.cpp:39-110 (fit, createPredictionDistanceParameter, predict), 198-328 (the tests around the
    cross-validation value), 330-522 (traces and shapes around the regressions); GWRLocalCollinearity.h:206-210 (getCriterion), 322-334 (members);
    SpatialMonoscaleAlgorithm.cpp:5-12; Algorithm.h:66, 85 (telegram).  The search is that of GoldModel.v, the regressions are those of
    RidgeFitModel.v.
    Oracles: [cv] the cross-validation sum of a weight (None: throws), with whether the telegram stopped it; [reg] coefficients and sums of the
    diagonal and squared entries of the hat rows, with whether the telegram stopped it; [lost] the sums added before an exception; [pred]
    coefficients at locations; [skipped] the telegram stops every iteration of predictOmp; [diagnose] LcDiagModel.v.  The telegram's answers between
    the stages are [stop] of a call.
    All are functions of the focus and data points the distance holds.  Simplified: CRS and Minkowski distances only; an exception within an OpenMP region (198-328 with OpenMP) is treated as an ordinary one.
    Not modelled: progress; hasHatMatrix, which has no effect. *)
From Coq Require Import Reals Bool List Arith.
From Verif Require Import Outcome XReal KernelModel GoldModel FlowModel.
Import ListNotations.
Local Open Scope R_scope.
Set Implicit Arguments.

Section Object.
(** Coordinates, pairs of mX and mY, matrices, diagnostics, ridge parameters (mLambda, mLambdaAdjust, mCnThresh), telegrams. *)
Variables (Crd XY Mat Diag Par Tel : Type).
Variable rows : Crd -> nat.
Variable columns : XY -> nat.
Variable cells : XY -> nat.                                     (* mX.size() *)
Variable maxdist : option (Crd * Crd) -> R.
Variable zeros : nat -> nat -> Mat.
Variable cv : Tel -> nat -> bool -> XY -> option (Crd * Crd) -> Par -> weight -> bool * option xd.
Variable reg : Tel -> bool -> XY -> option (Crd * Crd) -> Par -> weight -> outcome (Mat * (R * R) * bool).
Variable lost : Tel -> XY -> option (Crd * Crd) -> Par -> weight -> R * R.
Variable pred : Tel -> XY -> option (Crd * Crd) -> Par -> weight -> outcome (Mat * bool).
Variable skipped : Tel -> bool.
Variable diagnose : Crd -> XY -> Mat -> R * R -> Diag.

(** [o_dist]: focus and data points of the distance, None before the first preparation. *)
Record object := Object {
  o_crd : Crd; o_xy : XY; o_par : Par; o_weight : weight; o_dist : option (Crd * Crd); o_auto : bool; o_omp : bool;
  o_traces : R * R; o_betas : Mat; o_diag : Diag; o_blist : list (R * xd); o_term : bool }.
Definition set_dist (d : Crd * Crd) (o : object) : object :=
  Object (o_crd o) (o_xy o) (o_par o) (o_weight o) (Some d) (o_auto o) (o_omp o) (o_traces o) (o_betas o) (o_diag o) (o_blist o) (o_term o).
Definition set_term (b : bool) (o : object) : object :=
  Object (o_crd o) (o_xy o) (o_par o) (o_weight o) (o_dist o) (o_auto o) (o_omp o) (o_traces o) (o_betas o) (o_diag o) (o_blist o) b.
Definition set_bw (w : weight) (l : list (R * xd)) (o : object) : object :=
  Object (o_crd o) (o_xy o) (o_par o) w (o_dist o) (o_auto o) (o_omp o) (o_traces o) (o_betas o) (o_diag o) l (o_term o).
Definition set_traces (tr : R * R) (o : object) : object :=
  Object (o_crd o) (o_xy o) (o_par o) (o_weight o) (o_dist o) (o_auto o) (o_omp o) tr (o_betas o) (o_diag o) (o_blist o) (o_term o).
Definition set_betas (m : Mat) (o : object) : object :=
  Object (o_crd o) (o_xy o) (o_par o) (o_weight o) (o_dist o) (o_auto o) (o_omp o) (o_traces o) m (o_diag o) (o_blist o) (o_term o).
Definition set_diag (d : Diag) (o : object) : object :=
  Object (o_crd o) (o_xy o) (o_par o) (o_weight o) (o_dist o) (o_auto o) (o_omp o) (o_traces o) (o_betas o) d (o_blist o) (o_term o).

(** What a call returns: a matrix, a matrix of zeros of the given shape, nothing (setter); or it throws, or is undefined. *)
Inductive answer := Matrix (m : Mat) | Zeros (r c : nat) | Done | Threw | Undefined.
Inductive stage := Go (o : object) | Leave (a : answer) (o : object).
Definition andthen (s : stage) (k : object -> stage) : stage := match s with Go o => k o | Leave a o => Leave a o end.
(** GWM_LOG_STOP_RETURN(mStatus, mat(nDp, nVar, arma::fill::zeros)); the same shape in fit and predict. *)
Definition checkpoint (stop : bool) (o : object) : stage :=
  if stop then Leave (Zeros (rows (o_crd o)) (columns (o_xy o))) (set_term true o) else Go o.

(** 250-262, 308-328: DBL_MAX unless the status is Success and the sum finite; getCriterion answers the status. *)
Definition bw_criterion (t : Tel) (o : object) : criterion := fun k w =>
  let (stopped, r) := cv t k (o_omp o) (o_xy o) (o_dist o) (o_par o) w in
  let term := o_term o || stopped in
  match r with
  | None => Raise
  | Some v => Answer (negb term) (if negb term && xfinite v then v else XF DBL_MAX)
  end.
(** 49-66.  bw0 is the weight of the object itself, so the result Original leaves it; a cancelled search has set mStatus. *)
Definition bw_stage (t : Tel) (o : object) : stage :=
  let ad := wadaptive (o_weight o) in
  let r := optimize (bw_criterion t o) (o_weight o) (if ad then 20 else 0) (if ad then INR (rows (o_crd o)) else maxdist (o_dist o)) [] in
  match rresult r with
  | Fresh w => Go (set_bw w (bandwidth_criterion (rmap r)) o)
  | Original => Go (set_term true (set_bw (o_weight o) (bandwidth_criterion (rmap r)) o))
  | Thrown => Leave Threw o
  | Diverged => Leave Undefined o
  end.
(** 68-88; mTrS and mTrStS: fitSerial adds to them (370-371), fitOmp overwrites them (470-472). *)
Definition fit_stage (t : Tel) (stop : nat -> bool) (o : object) : stage :=
  match reg t (o_omp o) (o_xy o) (o_dist o) (o_par o) (o_weight o) with
  | UB => Leave Undefined o
  | Throw => let l := lost t (o_xy o) (o_dist o) (o_par o) (o_weight o) in
      Leave Threw (set_traces (fst (o_traces o) + fst l, snd (o_traces o) + snd l) o)
  | Ok (m, tr, stopped) =>
      let tr' := if o_omp o then tr else (fst (o_traces o) + fst tr, snd (o_traces o) + snd tr) in
      let o1 := set_term (o_term o || stopped) (set_betas m (set_traces tr' o)) in
      andthen (checkpoint (stop 2%nat) o1) (fun o2 => Leave (Matrix m) (set_diag (diagnose (o_crd o2) (o_xy o2) m (o_traces o2)) o2))
  end.
(** 39-88 *)
Definition fit (t : Tel) (stop : nat -> bool) (o : object) : answer * object :=
  match andthen (checkpoint (stop 0%nat) (set_dist (o_crd o, o_crd o) o)) (fun o =>
    andthen (if o_auto o then andthen (bw_stage t o) (checkpoint (stop 1%nat)) else Go o) (fit_stage t stop))
  with Leave a o' => (a, o') | Go o' => (Undefined, o') end.

(** 378-416: predictSerial.  476-522: predictOmp; the assignment of a row of the wrong length throws within the parallel region, which ends the program
    unless no iteration gets there; mTrS and mTrStS become the sums of zeros (518-520). *)
Definition pred_stage (t : Tel) (loc : Crd) (stop : nat -> bool) (o : object) : stage :=
  if o_omp o then
    if Nat.eqb (rows loc) 0 || skipped t then
      let m := zeros (rows loc) (S (cells (o_xy o))) in
      andthen (checkpoint (stop 1%nat) (set_term (o_term o || (negb (Nat.eqb (rows loc) 0) && skipped t)) (set_betas m (set_traces (0, 0) o))))
        (fun o => Leave (Matrix m) o)
    else Leave Undefined o
  else
    match pred t (o_xy o) (o_dist o) (o_par o) (o_weight o) with
    | UB => Leave Undefined o
    | Throw => Leave Threw o
    | Ok (m, stopped) => andthen (checkpoint (stop 1%nat) (set_term (o_term o || stopped) (set_betas m o))) (fun o => Leave (Matrix m) o)
    end.
(** 99-110 *)
Definition predict (t : Tel) (loc : Crd) (stop : nat -> bool) (o : object) : answer * object :=
  match andthen (checkpoint (stop 0%nat) (set_dist (loc, o_crd o) o)) (pred_stage t loc stop)
  with Leave a o' => (a, o') | Go o' => (Undefined, o') end.

(** SetWeight: setSpatialWeight clones the distance, without parameters. *)
Inductive call :=
| Fit (t : Tel) (stop : nat -> bool) | Predict (t : Tel) (loc : Crd) (stop : nat -> bool)
| SetCoords (c : Crd) | SetData (d : XY) | SetPar (p : Par) | SetWeight (w : weight) | SetAuto (b : bool) | SetOmp (b : bool).
Definition step (c : call) (o : object) : answer * object :=
  let set crd xy par w dist auto omp := (Done, Object crd xy par w dist auto omp (o_traces o) (o_betas o) (o_diag o) (o_blist o) (o_term o)) in
  match c with
  | Fit t stop => fit t stop o
  | Predict t loc stop => predict t loc stop o
  | SetCoords c => set c (o_xy o) (o_par o) (o_weight o) (o_dist o) (o_auto o) (o_omp o)
  | SetData d => set (o_crd o) d (o_par o) (o_weight o) (o_dist o) (o_auto o) (o_omp o)
  | SetPar p => set (o_crd o) (o_xy o) p (o_weight o) (o_dist o) (o_auto o) (o_omp o)
  | SetWeight w => set (o_crd o) (o_xy o) (o_par o) w None (o_auto o) (o_omp o)
  | SetAuto b => set (o_crd o) (o_xy o) (o_par o) (o_weight o) (o_dist o) b (o_omp o)
  | SetOmp b => set (o_crd o) (o_xy o) (o_par o) (o_weight o) (o_dist o) (o_auto o) b
  end.
Fixpoint run (cs : list call) (o : object) : object :=
  match cs with [] => o | c :: t => run t (snd (step c o)) end.
End Object.
Arguments Fit {Crd XY Par Tel} _ _.
Arguments Predict {Crd XY Par Tel} _ _ _.
Arguments SetCoords {Crd XY Par Tel} _.
Arguments SetData {Crd XY Par Tel} _.
Arguments SetPar {Crd XY Par Tel} _.
Arguments SetWeight {Crd XY Par Tel} _.
Arguments SetAuto {Crd XY Par Tel} _.
Arguments SetOmp {Crd XY Par Tel} _.
Arguments Matrix {Mat} _.
Arguments Zeros {Mat} _ _.
Arguments Done {Mat}.
Arguments Threw {Mat}.
Arguments Undefined {Mat}.
