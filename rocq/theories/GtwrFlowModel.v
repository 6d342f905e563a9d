(** Model of the stages of GTWR::fit: selection of a bandwidth, selection of lambda, regression.
    Source: GTWR.cpp:29-90 (fit), 182-252 (the bandwidth criteria), 496-538 (RsquareByLambda),
    GTWR.h:433-438 (getCriterion), CRSSTDistance.h:122-129 (setLambda), SpatialWeight.h:491-495
    (distance<CRSSTDistance>, an unchecked cast), Algorithm.h:66, 85 (the stop macros).
    The selectors are those of GoldModel.v and GtwrModel.v.  The regressions are parameters, functions of the
    weight and the lambda they are called with.
    Not modelled: log messages, and what follows the regression (diagnostics; DiagModel.v). *)
From Coq Require Import Reals Bool List Arith.
From Verif Require Import Outcome XReal KernelModel GtwrModel GoldModel.
Import ListNotations.
Local Open Scope R_scope.
Set Implicit Arguments. Set Contextual Implicit.

(** [B]: a coefficient matrix. *)
Section Flow.
Variable B : Type.

(** The members used.  [g_lambda]: mLambda of the distance object.  [g_crsst]: whether the distance is a
    CRSSTDistance.  [g_betas]: mBetas ([None]: not set).  [g_terminated]: mStatus is Terminated. *)
Record gobj := mkG {
  g_weight : weight; g_lambda : R; g_crsst : bool; g_auto_bw : bool; g_auto_lambda : bool;
  g_blist : list (R * xd); g_betas : option B; g_terminated : bool }.

Definition gset_terminated (t : bool) (o : gobj) : gobj :=
  mkG (g_weight o) (g_lambda o) (g_crsst o) (g_auto_bw o) (g_auto_lambda o) (g_blist o) (g_betas o) t.
Definition gset_weight (w : weight) (bl : list (R * xd)) (o : gobj) : gobj :=
  mkG w (g_lambda o) (g_crsst o) (g_auto_bw o) (g_auto_lambda o) bl (g_betas o) (g_terminated o).
Definition gset_lambda (l : R) (o : gobj) : gobj :=
  mkG (g_weight o) l (g_crsst o) (g_auto_bw o) (g_auto_lambda o) (g_blist o) (g_betas o) (g_terminated o).
Definition gset_betas (b : B) (o : gobj) : gobj :=
  mkG (g_weight o) (g_lambda o) (g_crsst o) (g_auto_bw o) (g_auto_lambda o) (g_blist o) (Some b) (g_terminated o).

(** What a run depends on besides the object.  [gw_made]: makeParameter accepts coordinates and times
    (equal numbers of rows).  [gw_maxd l]: maxDistance() with lambda l.  [gw_stop0] ... [gw_stop3]: answers of the
    telegram after initialisation, selection of the bandwidth, of lambda, and regression.
    [gw_bfit k w l], [gw_lfit k w l]: the k-th regression of the selection of a bandwidth / of lambda:
    whether the telegram stopped it, and the criterion / R squared ([None]: an exception).
    [gw_final w l]: the last regression and whether the telegram stopped it. *)
Record gworld := mkGW {
  gw_n : nat; gw_p : nat; gw_made : bool; gw_maxd : R -> R;
  gw_stop0 : bool; gw_stop1 : bool; gw_stop2 : bool; gw_stop3 : bool;
  gw_bfit : nat -> weight -> R -> bool * option xd;
  gw_lfit : nat -> weight -> R -> bool * option xd;
  gw_final : weight -> R -> outcome (B * bool) }.

Definition gfinite (v : xd) : bool := match v with XF _ => true | XNZ => true | _ => false end.
(** 182-252 and getCriterion: exceptions are caught; the distances use the present lambda. *)
Definition g_criterion (W : gworld) (o : gobj) : criterion := fun k w =>
  let (stopped, v) := gw_bfit W k w (g_lambda o) in
  let t := g_terminated o || stopped in
  Answer (negb t) (match v with
                   | Some a => if negb t && gfinite a then a else XF DBL_MAX
                   | None => XF DBL_MAX
                   end).
(** 496-538: exceptions are thrown again.  A call after a cancelled one also reports Terminated; as the
    cancelled one has already been recorded in sm this changes nothing in the selection. *)
Definition g_rsquare (W : gworld) (o : gobj) : rsquare := fun k l =>
  let (stopped, v) := gw_lfit W k (g_weight o) l in
  let t := g_terminated o || stopped in
  match v with
  | None => None
  | Some r => Some (negb t, if t then XF 0 else r)
  end.
(** Whether some evaluation of the list (newest first) was cancelled. *)
Definition g_cancelled (W : gworld) (o : gobj) (log : list R) : bool :=
  existsb (fun q => fst (gw_lfit W (fst q) (g_weight o) (snd q))) (combine (seq 0 (length log)) (rev log)).

Inductive gstaged := GGo (o : gobj) | GFailed (o : gobj) | GUndef.

(** 36-52.  bw0 is the weight of the object itself. *)
Definition g_bw_stage (W : gworld) (o : gobj) : gstaged :=
  let bw0 := g_weight o in
  let lower := if wadaptive bw0 then 20 else 0 in
  let upper := if wadaptive bw0 then INR (gw_n W) else gw_maxd W (g_lambda o) in
  let r := optimize (g_criterion W o) bw0 lower upper [] in
  match rresult r with
  | Fresh w => GGo (gset_weight w (bandwidth_criterion (rmap r)) o)
  | Original => GGo (gset_terminated true (gset_weight bw0 (bandwidth_criterion (rmap r)) o))
  | Thrown => GFailed o
  | Diverged => GUndef
  end.

(** 54-65.  Every evaluation sets lambda first; the lambda of an evaluation that throws stays.  All lambdas
    are in [0, 1] (C74), so setLambda accepts them. *)
Definition g_lambda_stage (W : gworld) (o : gobj) : gstaged :=
  if negb (g_crsst o) then GUndef
  else match LambdaAutoSelection (g_rsquare W o) with
       | LChosen l log => GGo (gset_terminated (g_terminated o || g_cancelled W o log) (gset_lambda l o))
       | LRaised log => GFailed (gset_terminated (g_terminated o || g_cancelled W o log)
                                   (gset_lambda (hd (g_lambda o) log) o))
       | LDiverged => GUndef
       end.

Inductive gvalue := GZeros (rows columns : nat) | GCoefficients (b : B).
Inductive gfinished := GReturned (v : gvalue) (o : gobj) | GThrew (o : gobj) | GUndefined.

Definition g_checkpoint (W : gworld) (stop : bool) (o : gobj) (k : gobj -> gfinished) : gfinished :=
  if stop then GReturned (GZeros (gw_n W) (gw_p W)) (gset_terminated true o) else k o.

Definition gtwr_fit (W : gworld) (o : gobj) : gfinished :=
  let regression (o : gobj) :=
    match gw_final W (g_weight o) (g_lambda o) with
    | Ok (b, stopped) =>
        g_checkpoint W (gw_stop3 W) (gset_terminated (g_terminated o || stopped) (gset_betas b o))
          (fun o => GReturned (GCoefficients b) o)
    | Throw => GThrew o
    | UB => GUndefined
    end in
  let lambda (o : gobj) :=
    if g_auto_lambda o then
      match g_lambda_stage W o with
      | GGo o' => g_checkpoint W (gw_stop2 W) o' regression
      | GFailed o' => GThrew o'
      | GUndef => GUndefined
      end
    else regression o in
  if g_crsst o && negb (gw_made W) then GThrew o
  else g_checkpoint W (gw_stop0 W) o (fun o =>
    if g_auto_bw o then
      match g_bw_stage W o with
      | GGo o' => g_checkpoint W (gw_stop1 W) o' lambda
      | GFailed o' => GThrew o'
      | GUndef => GUndefined
      end
    else lambda o).
End Flow.
