(** Model of a GWDR object over several calls.
    Source: GWDR.cpp:32-128 (fit), 523-601 (the tests around the criterion of a set of variables), 765-839 (optimiser);
    GWDR.h:113-118 (constructor), 150-264, 312-325 (setters, predict), 488-521 (members); SpatialAlgorithm.h (setCoords); Algorithm.h:66, 85 (telegram).
    The selector is that of VarModel.v, the optimiser that of GwdrModel.v, the distances those of DistModel.v (OneDimDistance).
    Oracles: [global_aicc], [local_aicc] AICc of the regression of one set of variables (539-592; GwdrCritModel.v), None for an exception, the
    second with whether the telegram stopped it; [bw_crit] the criterion of the bandwidths (CV or AIC) before the tests of status and finiteness;
    [simplex] the GSL minimiser (record gsl of GwdrModel.v), given the start point and the function it minimises; [fitting]
    fitSerial or fitOmp (GwdrFitModel.v) with whether the telegram stopped it; [spoiled] what a throwing fitting leaves in mBetasSE, mSHat,
    mQDiag, mS; [report] CalcDiagnostic and the scaling of mBetasSE (104-107).
    The telegram's answers between the stages are [stop] of a call.
    Not modelled: progress; local R2 (114-125), which is dropped; a weight that is not a BandwidthWeight. *)
From Coq Require Import Reals Bool List Arith ZArith.
From Verif Require Import Outcome XReal KernelModel DistModel VarModel FlowModel GwdrModel.
Import ListNotations.
Local Open Scope R_scope.
Set Implicit Arguments.

(** An element of mSpatialWeights: BandwidthWeight and OneDimDistance. *)
Record dimension := Dim { d_adaptive : bool; d_kernel : kernel; d_bw : R; d_dist : onedim }.
Definition with_bw (b : R) (d : dimension) : dimension := Dim (d_adaptive d) (d_kernel d) b (d_dist d).

Section Object.
(** Columns of mX, dependent variables, matrices, statistics (mBetasSE, mSHat, mQDiag, mS), diagnostics, telegrams. *)
Variables (C Y Mat Se Diag Tel : Type).
Variable srt : list (list nat * xd) -> list (list nat * xd).
Variable global_aicc : list C -> Y -> option xd.
Variable local_aicc : Tel -> nat -> list C -> Y -> list dimension -> bool * option xd.
Variable bw_crit : Tel -> list C -> Y -> list dimension -> option xd.
Variable simplex : Tel -> list R -> (list R -> xd) -> gsl.
Variable fitting : Tel -> list C -> Y -> list dimension -> outcome (Mat * Se * bool).
Variable spoiled : Tel -> list C -> Y -> list dimension -> Se -> Se.
Variable report : list C -> Y -> Mat -> Se -> Diag * Se.

(** [o_coords]: the columns of mCoords, each of [o_rows] numbers. *)
Record object := Object {
  o_coords : list (list R); o_rows : nat; o_x : list C; o_y : Y; o_dims : list dimension;
  o_intercept : bool; o_auto_bw : bool; o_auto_vars : bool; o_threshold : R; o_maxiter : nat;
  o_betas : Mat; o_se : Se; o_diag : Diag; o_selected : list nat; o_vlist : list (list nat * xd); o_term : bool }.

Definition set_term (t : bool) (o : object) : object :=
  Object (o_coords o) (o_rows o) (o_x o) (o_y o) (o_dims o) (o_intercept o) (o_auto_bw o) (o_auto_vars o) (o_threshold o) (o_maxiter o)
    (o_betas o) (o_se o) (o_diag o) (o_selected o) (o_vlist o) t.
Definition set_dims (ds : list dimension) (o : object) : object :=
  Object (o_coords o) (o_rows o) (o_x o) (o_y o) ds (o_intercept o) (o_auto_bw o) (o_auto_vars o) (o_threshold o) (o_maxiter o)
    (o_betas o) (o_se o) (o_diag o) (o_selected o) (o_vlist o) (o_term o).
Definition set_selected (s : list nat) (o : object) : object :=
  Object (o_coords o) (o_rows o) (o_x o) (o_y o) (o_dims o) (o_intercept o) (o_auto_bw o) (o_auto_vars o) (o_threshold o) (o_maxiter o)
    (o_betas o) (o_se o) (o_diag o) s (o_vlist o) (o_term o).
Definition set_x (x : list C) (vl : list (list nat * xd)) (o : object) : object :=
  Object (o_coords o) (o_rows o) x (o_y o) (o_dims o) (o_intercept o) (o_auto_bw o) (o_auto_vars o) (o_threshold o) (o_maxiter o)
    (o_betas o) (o_se o) (o_diag o) (o_selected o) vl (o_term o).
Definition set_result (m : Mat) (s : Se) (d : Diag) (o : object) : object :=
  Object (o_coords o) (o_rows o) (o_x o) (o_y o) (o_dims o) (o_intercept o) (o_auto_bw o) (o_auto_vars o) (o_threshold o) (o_maxiter o)
    m s d (o_selected o) (o_vlist o) (o_term o).

(** What a call returns: a matrix, a matrix of zeros of the given shape, nothing (setter); or it throws, or is undefined. *)
Inductive answer := Matrix (m : Mat) | Zeros (rows cols : nat) | Done | Threw | Undefined.
Inductive stage := Go (o : object) | Leave (a : answer) (o : object).
(** GWM_LOG_STOP_RETURN(mStatus, mat(nDp, nVars, fill::zeros)) *)
Definition checkpoint (stop : bool) (o : object) : stage :=
  if stop then Leave (Zeros (o_rows o) (length (o_x o))) (set_term true o) else Go o.
Definition andthen (s : stage) (k : object -> stage) : stage := match s with Go o => k o | Leave a o => Leave a o end.

(** 39-42: operator[] of a vector is unchecked. *)
Fixpoint place (cols : list (list R)) (ds : list dimension) : option (list dimension) :=
  match cols, ds with
  | [], _ => Some ds
  | _ :: _, [] => None
  | c :: cols', d :: ds' => option_map (cons (Dim (d_adaptive d) (d_kernel d) (d_bw d) (Some (c, c)))) (place cols' ds')
  end.
Definition coords_stage (o : object) : stage :=
  match place (o_coords o) (o_dims o) with Some ds => Go (set_dims ds o) | None => Leave Undefined o end.

(** A weight vector of a wrong length, or none, throws outside the handlers (219-224, 568-573). *)
Definition placed (n : nat) (d : dimension) : bool :=
  match d_dist d with Some (fp, dp) => Nat.eqb (length fp) n && Nat.eqb (length dp) n | None => false end.

(** 531-538 *)
Definition is_global (o : object) : bool := o_auto_bw o || existsb (fun d => Reqb (d_bw d) 0) (o_dims o).
(** 523-601 and getCriterion: status and criterion. *)
Definition var_criterion (t : Tel) (o : object) : vcriterion := fun k vs =>
  let x := picked (o_x o) (index2uvec vs (o_intercept o)) in
  let (stopped, v) := if is_global o then (false, global_aicc x (o_y o)) else local_aicc t k x (o_y o) (o_dims o) in
  let term := o_term o || stopped in
  (negb term, match v with Some a => if negb term && xfinite a then a else XF DBL_MAX | None => XF DBL_MAX end).
(** 49-52 *)
Definition candidates (o : object) : list nat :=
  let s := if o_intercept o then 1%nat else 0%nat in seq s (length (o_x o) - s).
(** 45-63.  Simplified: a local criterion without usable distances throws even if the telegram stops it before its first weights. *)
Definition select_stage (t : Tel) (o : object) : stage :=
  if negb (is_global o) && negb (forallb (placed (o_rows o)) (o_dims o)) && Nat.ltb 0 (o_rows o) && Nat.ltb 0 (length (candidates o)) then Leave Threw o else
  match vs_optimize (var_criterion t o) srt (candidates o) (o_threshold o) with
  | UB => Leave Undefined o
  | Throw => Leave Threw o
  | Ok (sel, rep) =>
      let o1 := set_selected sel (match rep with None => set_term true o | Some _ => o end) in
      match sel with
      | [] => Go o1
      | _ =>
          match cols (o_x o) (index2uvec sel (o_intercept o)) with
          | UB => Leave Undefined o1
          | Throw => Leave Threw o1
          | Ok x' =>
              match named_list (candidates o) (match rep with None => [] | Some l => l end) with
              | UB => Leave Undefined o1
              | Throw => Leave Threw o1
              | Ok vl => Go (set_x x' vl o1)
              end
          end
      end
  end.

(** 74-75: lower and upper end for a dimension. *)
Definition number (r : outcome xd) : outcome R :=
  match r with Ok (XF v) => Ok v | Ok _ => UB | Throw => Throw | UB => UB end.
Definition ends (n vars : nat) (d : dimension) : outcome (R * R) :=
  if d_adaptive d then Ok (INR vars + 1, INR n)
  else let* l := number (onedim_minDistance (d_dist d)) in let* u := number (onedim_maxDistance (d_dist d)) in Ok (l, u).
(** 70-80: the start values, in order; an exception leaves the earlier ones changed. *)
Fixpoint starts (n vars : nat) (ds : list dimension) : outcome unit * list dimension :=
  match ds with
  | [] => (Ok tt, [])
  | d :: t =>
      match ends n vars d with
      | Ok (l, u) => let (r, t') := starts n vars t in (r, with_bw (start_bandwidth l u (d_bw d)) d :: t')
      | Throw => (Throw, ds)
      | UB => (UB, ds)
      end
  end.
Fixpoint assign (bws : list R) (ds : list dimension) : list dimension :=
  match bws, ds with b :: bws', d :: ds' => with_bw b d :: assign bws' ds' | _, _ => ds end.
(** 765-777, 338-344, 456-465: DBL_MAX unless the status is Success and the value finite; only as many dimensions as coordinates count (382). *)
Definition bw_criterion (t : Tel) (o : object) (x : list R) : xd :=
  if o_term o then XF DBL_MAX else
  match bw_crit t (o_x o) (o_y o) (firstn (length (o_coords o)) (assign (evaluated (o_rows o) x) (o_dims o))) with
  | Some a => if xfinite a then a else XF DBL_MAX
  | None => XF DBL_MAX
  end.
(** 67-97.  802 tests the status of the object. *)
Definition bw_stage (t : Tel) (stop : nat -> bool) (o : object) : stage :=
  match starts (o_rows o) (length (o_x o)) (o_dims o) with
  | (UB, _) => Leave Undefined o
  | (Throw, ds) => Leave Threw (set_dims ds o)
  | (Ok tt, ds) =>
      let o1 := set_dims ds o in
      match ds with
      | [] => Leave Undefined o1                                         (* gsl_vector_alloc(0) aborts *)
      | _ =>
        let ms := map (fun d => (d_adaptive d, d_bw d)) ds in
        let g0 := simplex t (map (target (o_rows o)) ms) (bw_criterion t o1) in
        let g := mkGsl (g_points g0) (g_status g0) (g_x g0) (g_test g0) (fun k => o_term o || g_stopped g0 k) in
        match optimize g (o_rows o) (o_maxiter o) ms with
        | None => Leave Undefined o1
        | Some r =>
            let last := if Z.eqb (g_status g 0) 0 then match opt_loop (S (o_maxiter o)) g (o_maxiter o) 0 with Some (_, k) => k | None => 0%nat end else 0%nat in
            let o2 := set_term (g_stopped g last) (set_dims (assign (o_bws r) ds) o1) in
            andthen (checkpoint (stop 2%nat) o2) (fun o2 =>
              if Z.eqb (o_code r) 0 then checkpoint (stop 3%nat) o2 else Leave Threw o2)
        end
      end
  end.

(** 99-127 *)
Definition fit_stage (t : Tel) (stop : nat -> bool) (o : object) : stage :=
  if negb (forallb (placed (o_rows o)) (o_dims o)) && Nat.ltb 0 (o_rows o) then
    Leave Threw (set_result (o_betas o) (spoiled t (o_x o) (o_y o) (o_dims o) (o_se o)) (o_diag o) o)
  else
  match fitting t (o_x o) (o_y o) (o_dims o) with
  | UB => Leave Undefined o
  | Throw => Leave Threw (set_result (o_betas o) (spoiled t (o_x o) (o_y o) (o_dims o) (o_se o)) (o_diag o) o)
  | Ok (m, se, stopped) =>
      let o1 := set_term (o_term o || stopped) (set_result m se (o_diag o) o) in
      andthen (checkpoint (stop 4%nat) o1) (fun o1 =>
        let (dg, se') := report (o_x o) (o_y o) m se in Leave (Matrix m) (set_result m se' dg o1))
  end.

Definition fit (t : Tel) (stop : nat -> bool) (o : object) : answer * object :=
  match andthen (checkpoint (stop 0%nat) o) (fun o =>
    andthen (coords_stage o) (fun o =>
    andthen (if o_auto_vars o then andthen (select_stage t o) (checkpoint (stop 1%nat)) else Go o) (fun o =>
    andthen (if o_auto_bw o then bw_stage t stop o else Go o) (fit_stage t stop))))
  with Leave a o' => (a, o') | Go o' => (Undefined, o') end.

(** setSpatialWeights copies: the copies of the distances have no parameters (OneDimDistance.cpp:16-19). *)
Inductive call :=
| Fit (t : Tel) (stop : nat -> bool) | Predict (locations : nat)
| SetCoords (rows : nat) (cols : list (list R)) | SetX (x : list C) | SetY (y : Y) | SetWeights (ds : list dimension)
| SetIntercept (b : bool) | SetAutoBw (b : bool) | SetAutoVars (b : bool) | SetThreshold (r : R) | SetMaxIter (n : nat).
Definition step (c : call) (o : object) : answer * object :=
  let set rows coords x y ds i ab av th mi :=
    (Done, Object coords rows x y ds i ab av th mi (o_betas o) (o_se o) (o_diag o) (o_selected o) (o_vlist o) (o_term o)) in
  match c with
  | Fit t stop => fit t stop o
  | Predict l => (Zeros l (length (o_x o)), o)                            (* GWDR.h:323 *)
  | SetCoords n cs => set n cs (o_x o) (o_y o) (o_dims o) (o_intercept o) (o_auto_bw o) (o_auto_vars o) (o_threshold o) (o_maxiter o)
  | SetX x => set (o_rows o) (o_coords o) x (o_y o) (o_dims o) (o_intercept o) (o_auto_bw o) (o_auto_vars o) (o_threshold o) (o_maxiter o)
  | SetY y => set (o_rows o) (o_coords o) (o_x o) y (o_dims o) (o_intercept o) (o_auto_bw o) (o_auto_vars o) (o_threshold o) (o_maxiter o)
  | SetWeights ds => set (o_rows o) (o_coords o) (o_x o) (o_y o) (map (fun d => Dim (d_adaptive d) (d_kernel d) (d_bw d) (onedim_copy (d_dist d))) ds)
      (o_intercept o) (o_auto_bw o) (o_auto_vars o) (o_threshold o) (o_maxiter o)
  | SetIntercept b => set (o_rows o) (o_coords o) (o_x o) (o_y o) (o_dims o) b (o_auto_bw o) (o_auto_vars o) (o_threshold o) (o_maxiter o)
  | SetAutoBw b => set (o_rows o) (o_coords o) (o_x o) (o_y o) (o_dims o) (o_intercept o) b (o_auto_vars o) (o_threshold o) (o_maxiter o)
  | SetAutoVars b => set (o_rows o) (o_coords o) (o_x o) (o_y o) (o_dims o) (o_intercept o) (o_auto_bw o) b (o_threshold o) (o_maxiter o)
  | SetThreshold r => set (o_rows o) (o_coords o) (o_x o) (o_y o) (o_dims o) (o_intercept o) (o_auto_bw o) (o_auto_vars o) r (o_maxiter o)
  | SetMaxIter n => set (o_rows o) (o_coords o) (o_x o) (o_y o) (o_dims o) (o_intercept o) (o_auto_bw o) (o_auto_vars o) (o_threshold o) n
  end.
Fixpoint run (cs : list call) (o : object) : object :=
  match cs with [] => o | c :: t => run t (snd (step c o)) end.
End Object.
Arguments Fit {C Y Tel} _ _.
Arguments Predict {C Y Tel} _.
Arguments SetCoords {C Y Tel} _ _.
Arguments SetX {C Y Tel} _.
Arguments SetY {C Y Tel} _.
Arguments SetWeights {C Y Tel} _.
Arguments SetIntercept {C Y Tel} _.
Arguments SetAutoBw {C Y Tel} _.
Arguments SetAutoVars {C Y Tel} _.
Arguments SetThreshold {C Y Tel} _.
Arguments SetMaxIter {C Y Tel} _.
Arguments Matrix {Mat} _.
Arguments Zeros {Mat} _ _.
Arguments Done {Mat}.
Arguments Threw {Mat}.
Arguments Undefined {Mat}.
