(** Model of a GWRScalable object over several calls.
    Source: GWRScalable.cpp:300-341 (predict), 343-371 (predictSerial, neighbours), 463-518 (fit), 520-549 (fitSerial, neighbours);
    GWRScalable.h:104-167 (setters), 231-251 (members); GWRBase.h (betas(), setters of the data);
    SpatialMonoscaleAlgorithm.h (setSpatialWeight); Algorithm.h:66, 85 (telegram).
    Neighbour search and reference distance are those of ScaNnModel.v.  Oracles: [optimum] the stages prepare and optimize
    (256-298, 215-254; ScaModel.v, ScaOptModel.v), given the neighbours, the reference distances and what the telegram
    answers inside the loops: the criterion (mCV) with b_tilde and alpha, or None when mCV is not below DBL_MAX;
    [fitting], [predicting] the rest of fitSerial (551-662) and of predictSerial (373-460); [report] CalcDiagnostic
    and the scaling of mBetasSE (509-514).
    The telegram's answers after the stages are the three booleans of a call.  mStatus is written, never read here. *)
From Coq Require Import Reals Bool List ZArith.
From Verif Require Import Outcome XReal KernelModel ScaNnModel ScaOptModel.
Import ListNotations.
Local Open Scope R_scope.
Set Implicit Arguments.

Section Object.
Variable sort_index : list R -> list nat.
(** Data sets (coordinates, mX, mY): number of rows, of columns, distances; sets of locations; matrices; traces and unscaled
    standard errors; diagnostics; telegrams. *)
Variables (Data Loc Mat Se Diag Tel : Type).
Variables (d_n d_k : Data -> nat) (d_dist : Data -> nat -> list R).
Variables (l_n : Loc -> nat) (l_dist : Data -> Loc -> nat -> list R).
Notation neighbours := (list (list nat * list R)).
Variable optimum : Data -> kernel -> bool -> neighbours -> list R -> Tel -> outcome (option (R * R * R)).
Variable fitting : Data -> kernel -> R -> R -> neighbours -> list R -> Tel -> outcome (Mat * Se).
Variable predicting : Data -> Loc -> kernel -> R -> R -> neighbours -> list R -> Tel -> outcome Mat.
Variable report : Data -> Mat -> Se -> Diag * Se.

(** [o_cv]: mParameterOptimizeCriterion is CV.  [o_crit]: mCV (None: not below DBL_MAX). *)
Record object := Object {
  o_data : Data; o_bw : R; o_kernel : kernel; o_cv : bool;
  o_crit : option R; o_scale : R; o_penalty : R;
  o_betas : Mat; o_se : Se; o_diag : Diag; o_term : bool }.

Definition set_bw (b : R) (o : object) : object :=
  Object (o_data o) b (o_kernel o) (o_cv o) (o_crit o) (o_scale o) (o_penalty o) (o_betas o) (o_se o) (o_diag o) (o_term o).
Definition set_term (o : object) : object :=
  Object (o_data o) (o_bw o) (o_kernel o) (o_cv o) (o_crit o) (o_scale o) (o_penalty o) (o_betas o) (o_se o) (o_diag o) true.
Definition set_crit (c : option R) (o : object) : object :=
  Object (o_data o) (o_bw o) (o_kernel o) (o_cv o) c (o_scale o) (o_penalty o) (o_betas o) (o_se o) (o_diag o) (o_term o).
Definition set_par (s p : R) (o : object) : object :=
  Object (o_data o) (o_bw o) (o_kernel o) (o_cv o) (o_crit o) s p (o_betas o) (o_se o) (o_diag o) (o_term o).
Definition set_betas (m : Mat) (o : object) : object :=
  Object (o_data o) (o_bw o) (o_kernel o) (o_cv o) (o_crit o) (o_scale o) (o_penalty o) m (o_se o) (o_diag o) (o_term o).
Definition set_se (s : Se) (o : object) : object :=
  Object (o_data o) (o_bw o) (o_kernel o) (o_cv o) (o_crit o) (o_scale o) (o_penalty o) (o_betas o) s (o_diag o) (o_term o).
Definition set_diag (d : Diag) (o : object) : object :=
  Object (o_data o) (o_bw o) (o_kernel o) (o_cv o) (o_crit o) (o_scale o) (o_penalty o) (o_betas o) (o_se o) d (o_term o).

(** What a call returns: a matrix, a matrix of zeros of the given shape after a cancellation, nothing (setter); or it throws, or
    is undefined. *)
Inductive answer := Matrix (m : Mat) | Zeros (rows cols : nat) | Done | Threw | Undefined.

(** The kernels with a branch in the switches at 313, 359, 477, 537. *)
Definition supported (k : kernel) : bool := match k with Gaussian | Exponential => true | _ => false end.

(** .col(min(50, nBw) - 1) of a matrix of distances (316, 362, 480, 540). *)
Definition reference (rows : neighbours) (nBw : Z) : outcome (list R) :=
  for_rows (fun i =>
    match nth_error rows i with
    | Some r => match span0 (snd r) (w64 (Z.min 50 nBw - 1)) with Ok ds => Ok (last ds 0) | Throw => Throw | UB => UB end
    | None => Throw
    end) (seq 0 (length rows)).

(** fit 466-498 = predict 302-331.  [Go o b]: mCV < DBL_MAX, b_tilde and alpha; [Leave]: leave with this answer.
    [zeros]: the shape returned on a cancellation. *)
Inductive stage := Go (o : object) (b_tilde alpha : R) | Leave (a : answer) (o : object).
Definition common (zeros : nat * nat) (s1 s2 : bool) (t : Tel) (o : object) : stage :=
  let d := o_data o in
  match find_dp sort_index (o_cv o) (o_bw o) (d_dist d) (d_n d) with
  | UB => Leave Undefined o
  | Throw => Leave Threw o
  | Ok rows =>
      let o1 := set_bw (bandwidth_after (o_bw o) (d_n d)) o in        (* 470-475, 306-311 *)
      if supported (o_kernel o) then
        match first_stage sort_index (o_cv o) (o_bw o) (d_dist d) (d_n d) with
        | UB => Leave Undefined o1
        | Throw => Leave Threw o1
        | Ok (_, _, col) =>
            if s1 then Leave (Zeros (fst zeros) (snd zeros)) (set_term o1) else
            match optimum d (o_kernel o) (o_cv o) rows col t with
            | UB => Leave Undefined o1
            | Throw => Leave Threw o1
            | Ok r =>
                let o2 := set_crit (match r with Some (c, _, _) => Some c | None => None end) o1 in
                if s2 then Leave (Zeros (fst zeros) (snd zeros)) (set_term o2)
                else match r with
                     | Some (_, b, a) => Go o2 b a
                     | None => Leave (Matrix (o_betas o2)) o2
                     end
            end
        end
      else Leave (Matrix (o_betas o1)) o1                              (* 323-324, 487-488 *)
  end.

(** fit.  528: reached with (uword)bandwidth >= n only if the data is empty. *)
Definition fit (s1 s2 s3 : bool) (t : Tel) (o : object) : answer * object :=
  let d := o_data o in
  match common (d_n d, d_k d) s1 s2 t o with
  | Leave a o' => (a, o')
  | Go o2 b a =>
      let o3 := set_par (b * b) (a * a) o2 in
      let bw := if Z.leb (Z.of_nat (d_n d)) (Int_part (o_bw o3)) then o_bw o3 - 1 else o_bw o3 in
      let o3 := set_bw bw o3 in
      match (let* rows := find_nb sort_index bw (d_dist d) (d_n d) (d_n d) in
             let* col := reference rows (Int_part bw) in
             fitting d (o_kernel o) (b * b) (a * a) rows col t) with
      | UB => (Undefined, o3)
      | Throw => (Threw, o3)
      | Ok (m, se) =>
          let o4 := set_se se (set_betas m o3) in
          if s3 then (Zeros (d_n d) (d_k d), set_term o4)
          else let '(dg, se') := report d m se in (Matrix m, set_se se' (set_diag dg o4))
      end
  end.

(** predict.  306: "nVar = mX.n_rows", so the zeros have as many columns as there are observations. *)
Definition predict (l : Loc) (s1 s2 s3 : bool) (t : Tel) (o : object) : answer * object :=
  let d := o_data o in
  match common (l_n l, d_n d) s1 s2 t o with
  | Leave a o' => (a, o')
  | Go o2 b a =>
      let o3 := set_par (b * b) (a * a) o2 in
      match (let* rows := find_nb sort_index (o_bw o3) (l_dist d l) (d_n d) (l_n l) in
             let* col := reference rows (Int_part (o_bw o3)) in
             predicting d l (o_kernel o) (b * b) (a * a) rows col t) with
      | UB => (Undefined, o3)
      | Throw => (Threw, o3)
      | Ok m =>
          let o4 := set_betas m o3 in
          if s3 then (Zeros (l_n l) (d_n d), set_term o4) else (Matrix m, o4)
      end
  end.

Inductive call :=
| Fit (s1 s2 s3 : bool) (t : Tel) | Predict (l : Loc) (s1 s2 s3 : bool) (t : Tel)
| SetData (d : Data) | SetWeight (b : R) (k : kernel) | SetCriterion (cv : bool).
Definition step (c : call) (o : object) : answer * object :=
  match c with
  | Fit s1 s2 s3 t => fit s1 s2 s3 t o
  | Predict l s1 s2 s3 t => predict l s1 s2 s3 t o
  | SetData d => (Done, Object d (o_bw o) (o_kernel o) (o_cv o) (o_crit o) (o_scale o) (o_penalty o) (o_betas o) (o_se o) (o_diag o) (o_term o))
  | SetWeight b k => (Done, Object (o_data o) b k (o_cv o) (o_crit o) (o_scale o) (o_penalty o) (o_betas o) (o_se o) (o_diag o) (o_term o))
  | SetCriterion cv => (Done, Object (o_data o) (o_bw o) (o_kernel o) cv (o_crit o) (o_scale o) (o_penalty o) (o_betas o) (o_se o) (o_diag o) (o_term o))
  end.
Fixpoint run (cs : list call) (o : object) : object :=
  match cs with [] => o | c :: t => run t (snd (step c o)) end.
(** A new object with its settings: GWRScalable.h:231-241, no coefficients yet. *)
Definition fresh (empty : Mat) (se : Se) (dg : Diag) (d : Data) (b : R) (k : kernel) (cv : bool) : object :=
  Object d b k cv (Some 0) 1 (/ 100) empty se dg false.
End Object.
Arguments Fit {Data Loc Tel} _ _ _ _.
Arguments Predict {Data Loc Tel} _ _ _ _ _.
Arguments SetData {Data Loc Tel} _.
Arguments SetWeight {Data Loc Tel} _ _.
Arguments SetCriterion {Data Loc Tel} _.
Arguments Matrix {Mat} _.
Arguments Zeros {Mat} _ _.
Arguments Done {Mat}.
Arguments Threw {Mat}.
Arguments Undefined {Mat}.
