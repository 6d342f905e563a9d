(** Model of a GWRGeneralized object over several calls.
    Source: GWRGeneralized.cpp:20-160 (fit), 162-183 (createPredictionDistanceParameter, predict),
    GWRGeneralized.h:395-548 (setters), 421 (mHasHatMatrix = true initially), GWRBase.h:156 (betas()),
    Algorithm.h:60-85, 216 (telegram and status; nothing but setStatus resets the status).
    The regressions are those of GlmFitModel.v.  Oracles: [weights b] the weight vectors at bandwidth b (the weight object
    applied to the distances, which fit sets for the data); [select t b] the bandwidth search of an object with status
    Terminated or not (t), starting from b: its new bandwidth, if any, and whether the status is Terminated afterwards
    (the criteria read the status, GWRGeneralized.cpp:604, 657, 708, 754); [glm] whether CalGLMModel returns; [score W] the
    call of mCalWtFunction (mWt2 and myAdj), not interrupted, with mMaxiter > 0, so that myAdj does not survive from an
    earlier call.
    An empty matrix mWtMat1 (no fit yet) is [None]; its column access throws.  The reported diagnostics and standard errors
    are not part of the model (DiagModel.v, GlmFitModel.v). *)
From mathcomp Require Import all_ssreflect all_algebra.
From Verif Require Import Outcome GwrModel GlmModel GlmFitModel.
Set Implicit Arguments. Unset Strict Implicit. Unset Printing Implicit Defensive.
Import GRing.Theory.
Local Open Scope ring_scope.

Section Object.
Variables (F : realFieldType) (n p : nat) (Bw : Type).
Variable inv : 'M[F]_p -> option 'M[F]_p.
Variable x : 'M[F]_(n, p).
Variable fam : family.
Variable weights : Bw -> 'I_n -> 'cV[F]_n.
Variable select : bool -> Bw -> outcome (option Bw * bool).
Variable glm : outcome unit.
Variable score : ('I_n -> 'cV[F]_n) -> outcome ('cV[F]_n * 'cV[F]_n).

(** mBetas: one row per observation (after fit), or one column. *)
Inductive betas_member := ByRow of 'M[F]_(n, p) | ByColumn of 'M[F]_(p, n).
Record object := Object {
  o_bw : Bw; o_auto : bool; o_hat : bool; o_term : bool;
  o_wt : option ('I_n -> 'cV[F]_n);                 (* mWtMat1 = mWtMat2 *)
  o_betas : betas_member }.

(** Answers of the telegram: after the stages of fit (29, 49, 90), in the loop over the observations, after the stages of
    predict (177, 180). *)
Inductive call :=
| Fit of bool * bool * bool & ('I_n -> bool)
| Predict of seq (F * F) & bool * bool & ('I_n -> bool)
| SetHat of bool | SetAuto of bool | SetBandwidth of Bw.
(** What a call returns: coefficients, one row per observation; or those of predict, one column per observation; zeros
    after a cancellation; nothing (setter); or it throws, or is undefined. *)
Inductive answer := Coefficients of 'M[F]_(n, p) | Columns of 'M[F]_(p, n) | Cancelled | Done | Threw | Undefined.

(** 89, 179: "(this->*mGGWRfitFunction)(mX, mY)"; the result and whether the loop was interrupted.  [m]: mBetas before. *)
Definition regression (hat : bool) (W : 'I_n -> 'cV[F]_n) (stop : 'I_n -> bool) (m : 'M[F]_(p, n))
    : outcome (gfit F n p) * bool :=
  match score W with
  | Ok wz => (ggwr_fit inv x fam hat W W wz.1 wz.2 stop m, [exists i, stop i])
  | Throw => (Throw, false)
  | UB => (UB, false)
  end.

Definition fit (s : bool * bool * bool) (stop : 'I_n -> bool) (o : object) : answer * object :=
  let '(s0, s1, s2) := s in
  if s0 then (Cancelled, Object (o_bw o) (o_auto o) (o_hat o) true (o_wt o) (o_betas o)) else
  match (if o_auto o then select (o_term o) (o_bw o) else Ok (None, o_term o)) with
  | UB => (Undefined, o)
  | Throw => (Threw, o)
  | Ok (r, t) =>
      let b := match r with Some b => b | None => o_bw o end in
      if o_auto o && s1 then (Cancelled, Object b (o_auto o) (o_hat o) true (o_wt o) (o_betas o)) else
      let W := weights b in
      match glm with
      | UB => (Undefined, Object b (o_auto o) (o_hat o) t (Some W) (ByColumn 0))
      | Throw => (Threw, Object b (o_auto o) (o_hat o) t (Some W) (ByColumn 0))
      | Ok _ =>
          let '(g, i) := regression (o_hat o) W stop 0 in
          match g with
          | UB => (Undefined, Object b (o_auto o) (o_hat o) (t || i) (Some W) (ByColumn 0))
          | Throw => (Threw, Object b (o_auto o) (o_hat o) (t || i) (Some W) (ByColumn 0))
          | Ok g =>
              if s2 then (Cancelled, Object b (o_auto o) (o_hat o) true (Some W) (ByColumn (gbetas g)))
              else (Coefficients (gbetas g)^T, Object b (o_auto o) (o_hat o) (t || i) (Some W) (ByRow (gbetas g)^T))
          end
      end
  end.

(** 172-183.  The locations are only given to the distance, which nothing reads before the next fit sets it again.
    After a fit that returned coefficients the member mBetas has the wrong shape for the binomial regression, which
    writes columns of it; the exception of that assignment is left out (for more than one observation the product in front
    of it throws already). *)
Definition predict (locations : seq (F * F)) (s : bool * bool) (stop : 'I_n -> bool) (o : object) : answer * object :=
  if s.1 then (Cancelled, Object (o_bw o) (o_auto o) false true (o_wt o) (o_betas o)) else
  match o_wt o with
  | None => (Threw, Object (o_bw o) (o_auto o) false (o_term o) (o_wt o) (o_betas o))
  | Some W =>
      let '(g, i) := regression false W stop (match o_betas o with ByColumn m => m | ByRow _ => 0 end) in
      match g with
      | UB => (Undefined, Object (o_bw o) (o_auto o) false (o_term o || i) (o_wt o) (o_betas o))
      | Throw => (Threw, Object (o_bw o) (o_auto o) false (o_term o || i) (o_wt o) (o_betas o))
      | Ok g =>
          if s.2 then (Cancelled, Object (o_bw o) (o_auto o) false true (o_wt o) (ByColumn (gbetas g)))
          else (Columns (gbetas g), Object (o_bw o) (o_auto o) false (o_term o || i) (o_wt o) (ByColumn (gbetas g)))
      end
  end.

Definition step (c : call) (o : object) : answer * object :=
  match c with
  | Fit s stop => fit s stop o
  | Predict l s stop => predict l s stop o
  | SetHat b => (Done, Object (o_bw o) (o_auto o) b (o_term o) (o_wt o) (o_betas o))
  | SetAuto b => (Done, Object (o_bw o) b (o_hat o) (o_term o) (o_wt o) (o_betas o))
  | SetBandwidth b => (Done, Object b (o_auto o) (o_hat o) (o_term o) (o_wt o) (o_betas o))
  end.
Definition run (cs : seq call) (o : object) : object := foldl (fun o c => (step c o).2) o cs.
(** A new object. *)
Definition fresh (b : Bw) (auto : bool) : object := Object b auto true false None (ByColumn 0).
End Object.
Arguments SetHat {F n Bw} _.
Arguments SetAuto {F n Bw} _.
Arguments SetBandwidth {F n Bw} _.
Arguments Fit {F n Bw} _ _.
Arguments Predict {F n Bw} _ _ _.
Arguments Threw {F n p}.
Arguments Cancelled {F n p}.
