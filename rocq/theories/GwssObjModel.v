(** Model of a summary statistics object (GWSS) over several calls.
    Source: GWSS.h:123-135, 154, 169, 288 (constructors, setters), 361-381 (members); GWSS.cpp:63-100 (run), 102-132
    (GWAverageSerial), 134-173 (GWCorrelationSerial), 175-253 (OpenMP), 255-319 (setters,
    updateCalculator); SpatialMonoscaleAlgorithm.cpp:5-12.  The statistics of one location are those
    of GwssModel.
    Simplifications: a library built with OpenMP; finite numbers are exact; the weights of a location
    are given (mSpatialWeight.weightVector); no variable at all together with correlations
    ("nVar - 1" wraps round) is left out. *)
From Coq Require Import Reals Bool List Arith.
From Verif Require Import Outcome XReal RSort Sums GwssModel.
Import ListNotations.
Local Open Scope R_scope.

Definition matrix := list (list xd).
Definition zeros (r c : nat) : matrix := repeat (repeat (XF 0) c) r.
Definition put (i : nat) (row : list xd) (m : matrix) : matrix := firstn i m ++ row :: skipn (S i) m.

(** The results (GWSS.h:365-375) *)
Record stats := mkStats { s_mean : matrix; s_sd : matrix; s_skew : matrix; s_cv : matrix; s_var : matrix;
  s_median : matrix; s_iqr : matrix; s_qi : matrix; s_cov : matrix; s_corr : matrix; s_scorr : matrix }.
Definition no_stats : stats := mkStats [] [] [] [] [] [] [] [] [] [] [].

(** mX: rows, columns, elements (column first) *)
Record data := mkData { d_rows : nat; d_vars : nat; d_x : nat -> nat -> R }.
Inductive mode := Average | Correlation.
(** ParallelType (IParallelizable.h:15-24) *)
Inductive par := SerialOnly | OpenMP | CUDA | MPI | MPI_Serial | MPI_MP | MPI_CUDA.
(** mSummaryFunction *)
Inductive calculator := GWAverageSerial | GWCorrelationSerial | GWAverageOmp | GWCorrelationOmp.

(** [o_locs] is mCoords.n_rows, [o_weight i j] element j of weightVector(i). *)
Record obj := mkObj { o_data : data; o_locs : nat; o_weight : nat -> nat -> R; o_quantile : bool; o_first : bool;
  o_mode : mode; o_par : par; o_calc : calculator; o_term : bool; o_stats : stats }.

(** Constructor (GWSS.h:129-135) *)
Definition create (d : data) (locs : nat) (w : nat -> nat -> R) : obj :=
  mkObj d locs w false false Average SerialOnly GWAverageSerial false no_stats.

(** updateCalculator (270-319) *)
Definition calculator_of (p : par) (m : mode) : calculator :=
  match p, m with
  | OpenMP, Average => GWAverageOmp
  | OpenMP, Correlation => GWCorrelationOmp
  | _, Average => GWAverageSerial
  | _, Correlation => GWCorrelationSerial
  end.
(** "type & parallelAbility()" with parallelAbility() = SerialOnly | OpenMP (h:302-309) *)
Definition able (p : par) : bool :=
  match p with SerialOnly | OpenMP | MPI_Serial | MPI_MP => true | CUDA | MPI | MPI_CUDA => false end.

Definition set_stats (s : stats) (o : obj) : obj :=
  mkObj (o_data o) (o_locs o) (o_weight o) (o_quantile o) (o_first o) (o_mode o) (o_par o) (o_calc o) (o_term o) s.
Definition set_term (b : bool) (o : obj) : obj :=
  mkObj (o_data o) (o_locs o) (o_weight o) (o_quantile o) (o_first o) (o_mode o) (o_par o) (o_calc o) b (o_stats o).

(** The setters *)
Inductive setter :=
| SetVariables (d : data) | SetCoords (locs : nat) | SetWeight (w : nat -> nat -> R)
| SetQuantile (b : bool) | SetFirstOnly (b : bool) | SetMode (m : mode) | SetParallel (p : par).
Definition assign (s : setter) (o : obj) : obj :=
  match s with
  | SetVariables d => mkObj d (o_locs o) (o_weight o) (o_quantile o) (o_first o) (o_mode o) (o_par o) (o_calc o) (o_term o) (o_stats o)
  | SetCoords n => mkObj (o_data o) n (o_weight o) (o_quantile o) (o_first o) (o_mode o) (o_par o) (o_calc o) (o_term o) (o_stats o)
  | SetWeight w => mkObj (o_data o) (o_locs o) w (o_quantile o) (o_first o) (o_mode o) (o_par o) (o_calc o) (o_term o) (o_stats o)
  | SetQuantile b => mkObj (o_data o) (o_locs o) (o_weight o) b (o_first o) (o_mode o) (o_par o) (o_calc o) (o_term o) (o_stats o)
  | SetFirstOnly b => mkObj (o_data o) (o_locs o) (o_weight o) (o_quantile o) b (o_mode o) (o_par o) (o_calc o) (o_term o) (o_stats o)
  | SetMode m => mkObj (o_data o) (o_locs o) (o_weight o) (o_quantile o) (o_first o) m (o_par o) (calculator_of (o_par o) m) (o_term o) (o_stats o)
  | SetParallel p =>
      if able p then mkObj (o_data o) (o_locs o) (o_weight o) (o_quantile o) (o_first o) (o_mode o) p (calculator_of p (o_mode o)) (o_term o) (o_stats o)
      else o
  end.

Section Run.
(** arma::sort_index *)
Variable sort_index : list R -> list nat.

(** One location of GWAverageSerial (110-128).  A weight vector of another length than the columns
    makes "trans(Wi) * mX" throw.  Weights that sum to zero are all zero, so Wi is NaN: so are the
    moments, and no Cum(i) exceeds k in findq, which then takes the largest observation. *)
Definition moments (d : data) (w : nat -> R) (f : nat -> (nat -> R) -> (nat -> R) -> xd) : list xd :=
  map (fun j => match normalise (d_rows d) w with Some W => f (d_rows d) W (d_x d j) | None => XN end) (seq 0 (d_vars d)).
Definition largest (n : nat) (x : nat -> R) : outcome (R * R * xd) :=
  match nth_error (rsort (column n x)) (n - 1) with Some v => Ok (v, 0, XN) | None => UB end.
Definition quartiles (d : data) (w : nat -> R) (j : nat) : outcome (R * R * xd) :=
  match normalise (d_rows d) w with
  | Some W => quartile_stats sort_index (d_rows d) (d_x d j) W
  | None => largest (d_rows d) (d_x d j)
  end.
Fixpoint all_of {A : Type} (l : list (outcome A)) : outcome (list A) :=
  match l with [] => Ok [] | a :: t => let* x := a in let* r := all_of t in Ok (x :: r) end.
Definition average_at (o : obj) (i : nat) (s : stats) : outcome stats :=
  let d := o_data o in let w := o_weight o i in
  if negb (Nat.eqb (o_locs o) (d_rows d)) then Throw
  else
    let mean := put i (moments d w (fun n W x => XF (gw_mean n W x))) (s_mean s) in
    let* q := if o_quantile o
              then let* q := all_of (map (quartiles d w) (seq 0 (d_vars d))) in
                   Ok (put i (map (fun t => XF (fst (fst t))) q) (s_median s),
                       put i (map (fun t => XF (snd (fst t))) q) (s_iqr s), put i (map snd q) (s_qi s))
              else Ok (s_median s, s_iqr s, s_qi s) in
    let '(median, iqr, qi) := q in
    Ok (mkStats mean (put i (moments d w gw_sd) (s_sd s)) (put i (moments d w gw_skew) (s_skew s)) (s_cv s)
          (put i (moments d w (fun n W x => XF (gw_var n W x))) (s_var s)) median iqr qi (s_cov s) (s_corr s) (s_scorr s)).

(** One location of GWCorrelationSerial (145-165) *)
Definition pairwise (o : obj) (w : nat -> R) (f : nat -> (nat -> R) -> (nat -> R) -> (nat -> R) -> xd) : outcome (list xd) :=
  let d := o_data o in
  corr_row (o_first o) (d_vars d) (fun j k =>
    match normalise (d_rows d) w with Some W => f (d_rows d) (d_x d j) (d_x d k) W | None => XN end).
Definition correlation_at (o : obj) (i : nat) (s : stats) : outcome stats :=
  let d := o_data o in let w := o_weight o i in
  if negb (Nat.eqb (o_locs o) (d_rows d)) then Throw
  else
    let* cov := pairwise o w covwt in
    let* cor := pairwise o w corr in
    let* sco := pairwise o w (spearman sort_index) in
    Ok (mkStats (put i (moments d w (fun n W x => XF (gw_mean n W x))) (s_mean s)) (s_sd s) (s_skew s) (s_cv s)
          (put i (moments d w (fun n W x => XF (gw_var n W x))) (s_var s)) (s_median s) (s_iqr s) (s_qi s)
          (put i cov (s_cov s)) (put i cor (s_corr s)) (put i sco (s_scorr s))).

(** The loops: [stop i] is the answer of the telegram at location i.  Serial: a request ends the loop, an exception
    leaves the call.  OpenMP: the iterations happen in some order, a request skips one, an exception that
    leaves an iteration ends the program. *)
Inductive ending := Ended (term : bool) (s : stats) | Threw_ (s : stats) | Gone.
Variable stop : nat -> bool.
Fixpoint serial (step : nat -> stats -> outcome stats) (term : bool) (todo : list nat) (s : stats) : ending :=
  match todo with
  | [] => Ended term s
  | i :: t =>
      if stop i then Ended true s
      else match step i s with Ok s' => serial step term t s' | Throw => Threw_ s | UB => Gone end
  end.
Fixpoint parallel (step : nat -> stats -> outcome stats) (term : bool) (todo : list nat) (s : stats) : ending :=
  match todo with
  | [] => Ended term s
  | i :: t =>
      if stop i then parallel step true t s
      else match step i s with Ok s' => parallel step term t s' | _ => Gone end
  end.

(** "mLCV = mStandardDev / mLocalMean" (131, 207), elements of matrices of equal size *)
Definition quotient (a b : matrix) : matrix := map (fun r => map (fun v => xdiv (fst v) (snd v)) (combine (fst r) (snd r))) (combine a b).
Definition with_cv (e : ending) : ending :=
  match e with
  | Ended t s => Ended t (mkStats (s_mean s) (s_sd s) (s_skew s) (quotient (s_sd s) (s_mean s)) (s_var s)
                           (s_median s) (s_iqr s) (s_qi s) (s_cov s) (s_corr s) (s_scorr s))
  | e => e
  end.

(** The matrices before the loops (71-96) *)
Definition prepare (o : obj) : stats :=
  let s := o_stats o in let r := o_locs o in let c := d_vars (o_data o) in let z := zeros r c in
  match o_mode o with
  | Correlation => let p := zeros r (corr_cols (o_first o) c) in
      mkStats z (s_sd s) (s_skew s) (s_cv s) z (s_median s) (s_iqr s) (s_qi s) p p p
  | Average => if o_quantile o then mkStats z z z z z z z z (s_cov s) (s_corr s) (s_scorr s)
               else mkStats z z z z z (s_median s) (s_iqr s) (s_qi s) (s_cov s) (s_corr s) (s_scorr s)
  end.
(** The four summary functions; [order] is the order of the iterations in the parallel ones. *)
Definition summarise (order : list nat) (o : obj) (s : stats) : ending :=
  let todo := seq 0 (o_locs o) in
  let enough := (2 <=? d_vars (o_data o))%nat in
  match o_calc o with
  | GWAverageSerial => with_cv (serial (average_at o) (o_term o) todo s)
  | GWCorrelationSerial => if enough then serial (correlation_at o) (o_term o) todo s else Threw_ s
  | GWAverageOmp => with_cv (parallel (average_at o) (o_term o) order s)
  | GWCorrelationOmp => if enough then parallel (correlation_at o) (o_term o) order s else Threw_ s
  end.

Inductive result := Returns (o : obj) | Throws (o : obj) | Undefined.
(** run (63-100); [early] is the request to stop at 68. *)
Definition run (early : bool) (order : list nat) (o : obj) : result :=
  if early then Returns (set_term true o)
  else match summarise order o (prepare o) with
       | Ended t s => Returns (set_term t (set_stats s o))
       | Threw_ s => Throws (set_stats s o)
       | Gone => Undefined
       end.
End Run.
