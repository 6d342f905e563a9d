(** Model of a GWRRobust object over several calls.
    Source: GWRRobust.cpp:30-105 (fit), 107-118 (predict), 225-235 (regressionHatmatrix); GWRRobust.h:42 (constructor), 59-66
    (filtered, setFiltered), 131 ("bool mFiltered;", no initial value); GWRBasic.h (the members of the base class; setGoldenLowerBounds and
    setGoldenUpperBounds are inherited).
    The stages of fit repeat those of GWRBasic::fit and are taken from FlowModel.v; the calibration is that of RobModel.v.
    Differences: the search for a bandwidth does not look at the bounds of the base class (GWRRobust.cpp:66-67); there is no
    branch for the hat matrix.
    Reading mFiltered before it was set is undefined.  The diagnostics computed after the calibration (82-103) are not part
    of the model. *)
From Coq Require Import Reals Bool List Arith.
From Verif Require Import Outcome XReal KernelModel GoldModel VarModel GlmModel RobModel FlowModel.
Import ListNotations.
Local Open Scope R_scope.
Set Implicit Arguments. Set Contextual Implicit.

Section Robust.
Variables C B : Type.

(** [r_filtered]: mFiltered (None: never set).  mWeightMask is set to ones (80) before the calibration reads it, and nothing
    else reads it: it is not part of the state. *)
Record robust := mkRobust { r_base : object C; r_filtered : option bool }.

(** What a call of fit depends on besides the object: the world of the stages, mfitFunction on columns and weight with a mask,
    residuals and studentised residuals of a fit, and the answers of the telegram after each of these fits and after
    the calibration. *)
Record setting := mkSetting {
  s_world : world C B;
  s_fit : list C -> weight -> xvec -> outcome B;
  s_resid : list C -> B -> xvec;
  s_stud : list C -> weight -> B -> xvec;
  s_zero : B;
  s_stop : nat -> bool;
  s_stop_end : bool }.

(** "adaptive() ? 20 : 0.0" and "adaptive() ? nDp : maxDistance()" (66-67) *)
Definition without_bounds (o : object C) : object C :=
  mkObject (o_x o) (o_intercept o) (o_auto_vars o) (o_auto_bw o) (o_threshold o) None None (o_weight o)
    (o_selected o) (o_vlist o) (o_blist o) (o_terminated o).
Definition with_bounds (l u : option R) (o : object C) : object C :=
  mkObject (o_x o) (o_intercept o) (o_auto_vars o) (o_auto_bw o) (o_threshold o) l u (o_weight o)
    (o_selected o) (o_vlist o) (o_blist o) (o_terminated o).
Definition robust_bw_stage (W : world C B) (o : object C) : staged C :=
  match bw_stage W (without_bounds o) with
  | Go o' => Go (with_bounds (o_lower o) (o_upper o) o')
  | Failed o' => Failed (with_bounds (o_lower o) (o_upper o) o')
  | Undef => Undef
  end.

Inductive rfinished := RReturned (v : value B) (r : robust) | RThrew (r : robust) | RUndefined.

(** 79-81, 105.  [interrupted]: the telegram stopped one of the fits, or the run after them; each sets the status. *)
Definition robust_regression (G : setting) (f : option bool) (o : object C) : rfinished :=
  match f with
  | None => RUndefined
  | Some b =>
      match calibrate B (w_n (s_world G)) (s_fit G (o_x o) (o_weight o)) (s_resid G (o_x o)) (s_stud G (o_x o) (o_weight o))
              (s_stop G) (s_zero G) b with
      | UB => RUndefined
      | Throw => RThrew (mkRobust o f)
      | Ok (v, made) =>
          let t := o_terminated o || existsb (s_stop G) (seq 0 (length made)) in
          if s_stop_end G
          then RReturned (Zeros (w_n (s_world G)) (length (o_x o))) (mkRobust (set_terminated true o) f)
          else RReturned (Coefficients v) (mkRobust (set_terminated t o) f)
      end
  end.

Definition robust_fit (G : setting) (srt : list vmodel -> list vmodel) (r : robust) : rfinished :=
  let W := s_world G in
  let stop (o : object C) := RReturned (Zeros (w_n W) (length (o_x o))) (mkRobust (set_terminated true o) (r_filtered r)) in
  let bandwidth (o : object C) :=
    if o_auto_bw o then
      match robust_bw_stage W o with
      | Go o' => if w_stop2 W then stop o' else robust_regression G (r_filtered r) o'
      | Failed o' => RThrew (mkRobust o' (r_filtered r))
      | Undef => RUndefined
      end
    else robust_regression G (r_filtered r) o in
  if w_stop0 W then stop (r_base r)
  else if o_auto_vars (r_base r) then
    match select_stage W srt (r_base r) with
    | Go o' => if w_stop1 W then stop o' else bandwidth o'
    | Failed o' => RThrew (mkRobust o' (r_filtered r))
    | Undef => RUndefined
    end
  else bandwidth (r_base r).

(** 107-118: mPredictFunction is GWRBasic::predictSerial (GWRBasic.cpp:209-233), [p_fit] here, which does not read the mask. *)
Record prediction := mkPrediction {
  p_fit : list C -> weight -> outcome (B * bool); p_rows : nat; p_stop0 : bool; p_stop1 : bool }.
Definition robust_predict (P : prediction) (r : robust) : rfinished :=
  let o := r_base r in
  let stop := RReturned (Zeros (p_rows P) (length (o_x o))) (mkRobust (set_terminated true o) (r_filtered r)) in
  if p_stop0 P then stop else
  match p_fit P (o_x o) (o_weight o) with
  | UB => RUndefined
  | Throw => RThrew r
  | Ok (b, stopped) =>
      if p_stop1 P then stop
      else RReturned (Coefficients b) (mkRobust (set_terminated (o_terminated o || stopped) o) (r_filtered r))
  end.

Inductive call := Fit (G : setting) | Predict (P : prediction) | SetFiltered (b : bool).
Definition step (srt : list vmodel -> list vmodel) (c : call) (r : robust) : rfinished :=
  match c with
  | Fit G => robust_fit G srt r
  | Predict P => robust_predict P r
  | SetFiltered b => RReturned (Zeros 0 0) (mkRobust (r_base r) (Some b))
  end.
(** The object after a call; None: undefined. *)
Definition after (f : rfinished) : option robust := match f with RReturned _ r => Some r | RThrew r => Some r | RUndefined => None end.
Fixpoint run (srt : list vmodel -> list vmodel) (cs : list call) (r : robust) : option robust :=
  match cs with
  | [] => Some r
  | c :: t => match after (step srt c r) with Some r' => run srt t r' | None => None end
  end.
(** A new object with the settings of the base class. *)
Definition fresh (o : object C) : robust := mkRobust o None.
End Robust.
