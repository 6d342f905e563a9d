(** Model of the stages of GWRBasic::fit: initialisation, selection of variables, selection of a
    bandwidth, regression.
    Source: GWRBasic.cpp:62-170 (fit), 353-419 (the three criteria), GWRBasic.h:400-432 (getCriterion),
    VariableForwardSelector.h:26-35 (index2uvec), Algorithm.h:85 (GWM_LOG_STOP_RETURN).
    The selectors are those of VarModel.v and GoldModel.v.  The regressions themselves (GwrModel.v) are
    parameters here, functions of the columns and weight they are called with.
    Not modelled: the branches of MPI and CUDA, progress and log messages, and the coordinates. *)
From Coq Require Import Reals Bool List Arith.
From Verif Require Import Outcome XReal KernelModel GoldModel VarModel.
Import ListNotations.
Local Open Scope R_scope.
Set Implicit Arguments. Set Contextual Implicit.

(** [C]: a column of mX.  [B]: a coefficient matrix. *)
Section Flow.
Variables C B : Type.

(** The members used (GWRBasic.h:737-751, GWRBase.h:178, Algorithm.h:216).  [o_terminated]: mStatus is
    Terminated (true) or Success. *)
Record object := mkObject {
  o_x : list C; o_intercept : bool; o_auto_vars : bool; o_auto_bw : bool; o_threshold : R;
  o_lower : option R; o_upper : option R; o_weight : weight;
  o_selected : list nat; o_vlist : list (list nat * xd); o_blist : list (R * xd); o_terminated : bool }.

Definition set_terminated (t : bool) (o : object) : object :=
  mkObject (o_x o) (o_intercept o) (o_auto_vars o) (o_auto_bw o) (o_threshold o) (o_lower o) (o_upper o) (o_weight o)
    (o_selected o) (o_vlist o) (o_blist o) t.
Definition set_selected (s : list nat) (o : object) : object :=
  mkObject (o_x o) (o_intercept o) (o_auto_vars o) (o_auto_bw o) (o_threshold o) (o_lower o) (o_upper o) (o_weight o)
    s (o_vlist o) (o_blist o) (o_terminated o).
Definition set_x (x : list C) (vl : list (list nat * xd)) (o : object) : object :=
  mkObject x (o_intercept o) (o_auto_vars o) (o_auto_bw o) (o_threshold o) (o_lower o) (o_upper o) (o_weight o)
    (o_selected o) vl (o_blist o) (o_terminated o).
Definition set_weight (w : weight) (bl : list (R * xd)) (o : object) : object :=
  mkObject (o_x o) (o_intercept o) (o_auto_vars o) (o_auto_bw o) (o_threshold o) (o_lower o) (o_upper o) w
    (o_selected o) (o_vlist o) bl (o_terminated o).

(** Everything a run depends on besides the object: number of observations, the largest distance, the
    answers of the telegram after the initialisation and after each selection, and the regressions.
    [w_vfit k x w], the k-th regression of the variable selection on columns x with weight w: whether the
    telegram stopped it, and the AICc computed from it ([None]: an exception).
    [w_bfit]: the same for the bandwidth criterion.
    [w_final x w]: the last regression: coefficients and whether the telegram stopped it. *)
Record world := mkWorld {
  w_n : nat; w_maxd : R; w_stop0 : bool; w_stop1 : bool; w_stop2 : bool;
  w_vfit : nat -> list C -> weight -> bool * option xd;
  w_bfit : nat -> list C -> weight -> bool * option xd;
  w_final : list C -> weight -> outcome (B * bool) }.

(** index2uvec: the intercept is column 0. *)
Definition index2uvec (idx : list nat) (has_intercept : bool) : list nat :=
  (if has_intercept then [0%nat] else []) ++ idx.

(** mX.cols(idx): an index out of range throws. *)
Fixpoint cols (x : list C) (idx : list nat) : outcome (list C) :=
  match idx with
  | [] => Ok []
  | i :: t => match nth_error x i with
              | None => Throw
              | Some c => let* r := cols x t in Ok (c :: r)
              end
  end.
(** The same in the criterion, which is only called with indices in range (theorem C121_calls_in_range). *)
Definition picked (x : list C) (idx : list nat) : list C :=
  flat_map (fun i => match nth_error x i with Some c => [c] | None => [] end) idx.

(** indepVarsSelectionCriterion (396-419) and getCriterion: a copy of the weight with bandwidth DBL_MAX;
    no test for a finite value. *)
Definition var_criterion (W : world) (o : object) : vcriterion := fun k vs =>
  let w := mkWeight (wkernel (o_weight o)) (wadaptive (o_weight o)) DBL_MAX in
  let (stopped, v) := w_vfit W k (picked (o_x o) (index2uvec vs (o_intercept o))) w in
  let t := o_terminated o || stopped in
  (negb t, match v with Some a => if t then XF DBL_MAX else a | None => XF DBL_MAX end).

Definition xfinite (v : xd) : bool := match v with XF _ => true | XNZ => true | _ => false end.
(** bandwidthSizeCriterionCV and ...AIC (353-394) and getCriterion: exceptions are caught. *)
Definition bw_criterion (W : world) (o : object) : criterion := fun k w =>
  let (stopped, v) := w_bfit W k (o_x o) w in
  let t := o_terminated o || stopped in
  Answer (negb t) (match v with
                   | Some a => if negb t && xfinite a then a else XF DBL_MAX
                   | None => XF DBL_MAX
                   end).

Inductive staged := Go (o : object) | Failed (o : object) | Undef.

(** "for (size_t i = (mHasIntercept ? 1 : 0); i < mX.n_cols; i++)" (112-116) *)
Definition candidates (o : object) : list nat :=
  let s := if o_intercept o then 1%nat else 0%nat in seq s (length (o_x o) - s).

(** VariableForwardSelector::indepVarsCriterion (cpp:78-91) *)
Fixpoint named_list (vars : list nat) (l : list (list nat * xd)) : outcome (list (list nat * xd)) :=
  match l with
  | [] => Ok []
  | (idx, v) :: t => let* a := convert vars idx in let* r := named_list vars t in Ok ((a, v) :: r)
  end.

(** 109-130.  A search that was cancelled reports nothing ([None]) and has set mStatus. *)
Definition select_stage (W : world) (srt : list vmodel -> list vmodel) (o : object) : staged :=
  match vs_optimize (var_criterion W o) srt (candidates o) (o_threshold o) with
  | UB => Undef
  | Throw => Failed o
  | Ok (sel, rep) =>
      let o1 := set_selected sel (match rep with None => set_terminated true o | Some _ => o end) in
      match sel with
      | [] => Go o1
      | _ =>
          match cols (o_x o) (index2uvec sel (o_intercept o)) with
          | UB => Undef
          | Throw => Failed o1
          | Ok x' =>
              match named_list (candidates o) (match rep with None => [] | Some l => l end) with
              | UB => Undef
              | Throw => Failed o1
              | Ok vl => Go (set_x x' vl o1)
              end
          end
      end
  end.

(** 132-156.  bw0 is the weight of the object itself, so the result Original leaves it in place; a search
    that was cancelled has set mStatus.  [Diverged] does not occur (C22). *)
Definition lower_bound (o : object) : R :=
  match o_lower o with Some l => l | None => if wadaptive (o_weight o) then 20 else 0 end.
Definition upper_bound (W : world) (o : object) : R :=
  match o_upper o with Some u => u | None => if wadaptive (o_weight o) then INR (w_n W) else w_maxd W end.
Definition bw_stage (W : world) (o : object) : staged :=
  let r := optimize (bw_criterion W o) (o_weight o) (lower_bound o) (upper_bound W o) [] in
  match rresult r with
  | Fresh w => Go (set_weight w (bandwidth_criterion (rmap r)) o)
  | Original => Go (set_terminated true (set_weight (o_weight o) (bandwidth_criterion (rmap r)) o))
  | Thrown => Failed o
  | Diverged => Undef
  end.

Inductive value := Zeros (rows columns : nat) | Coefficients (b : B).
(** A run returns, throws leaving the object changed, or is undefined. *)
Inductive finished := Returned (v : value) (o : object) | Threw (o : object) | Undefined.

(** GWM_LOG_STOP_RETURN(mStatus, mat(nDp, nVars, fill::zeros)) *)
Definition checkpoint (W : world) (stop : bool) (o : object) (k : object -> finished) : finished :=
  if stop then Returned (Zeros (w_n W) (length (o_x o))) (set_terminated true o) else k o.

Definition flow_fit (W : world) (srt : list vmodel -> list vmodel) (o : object) : finished :=
  let regression (o : object) :=
    match w_final W (o_x o) (o_weight o) with
    | Ok (b, stopped) => Returned (Coefficients b) (set_terminated (o_terminated o || stopped) o)
    | Throw => Threw o
    | UB => Undefined
    end in
  let bandwidth (o : object) :=
    if o_auto_bw o then
      match bw_stage W o with
      | Go o' => checkpoint W (w_stop2 W) o' regression
      | Failed o' => Threw o'
      | Undef => Undefined
      end
    else regression o in
  checkpoint W (w_stop0 W) o (fun o =>
    if o_auto_vars o then
      match select_stage W srt o with
      | Go o' => checkpoint W (w_stop1 W) o' bandwidth
      | Failed o' => Threw o'
      | Undef => Undefined
      end
    else bandwidth o).
End Flow.
