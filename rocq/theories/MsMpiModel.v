(** Model of distributed multiscale regression: every process runs the same back-fitting
    and meets the others in collective operations.
    Source: src/gwmodelpp/GWRMultiscale.cpp 143-291 (fit, after the initial basic GWR), 293-385
    (backfitting), 387-447 (fitVarBase and the criteria of one process), 489-607 (the loops over
    locations), 947-1042 (fitVarMpi, bandwidthSizeCriterionVarCVMpi, ...AICMpi);
    src/gwmodelpp/utils/armampi.cpp 8-25 (mat_mul_mpi); include/gwmodelpp/Algorithm.h 66, 85
    (GWM_LOG_STOP_BREAK, GWM_LOG_STOP_RETURN); include/gwmodelpp/GWRMultiscale.h 577-581 (getCriterion).

    Simplifications of the whole file: numbers that are added, multiplied or compared
    by MPI_MAX are real numbers; all processes start with the same data (broadcast, 173-175) and
    the same coefficients of the basic GWR (broadcast by its fitMpi); the local regressions are
    functions of the variable, its response, the bandwidth and the location; of the hat matrices
    only the collective operations are modelled, not the contents; log messages and the
    diagnostics are left out. *)
From Coq Require Import Reals Bool List Arith.
From Verif Require Import Outcome XReal Sums KernelModel MpiModel OmpModel MsCritModel GoldModel MpiSelModel MpiSelGoldModel.
Import ListNotations.
Local Open Scope R_scope.

(** ** Processes and collective operations *)

(** The collective operations, with what the calling process puts in. *)
Inductive call : Type :=
| AllreduceMax (v : nat -> R)        (* 953 *)
| AllgatherStatus (ok : bool)        (* 978, 1018 *)
| ReduceMax (v : nat -> R)           (* 988, 1029: root 0 *)
| ReduceSum (v : nat -> R)           (* 1030: root 0 *)
| BcastNumber (v : xd)               (* 993, 1034: root 0 *)
| HatRows                            (* armampi.cpp 14: MPI_Allgather *)
| HatScatter (root : nat)            (* armampi.cpp 21: MPI_Scatterv *)
| HatReduce (root : nat)             (* armampi.cpp 23: MPI_Reduce *)
| TraceReduce                        (* 263: root 0 *)
| TraceBcast.                        (* 264: root 0 *)

(** The calls of two processes belong to the same collective operation. *)
Definition fits_with (a b : call) : bool :=
  match a, b with
  | AllreduceMax _, AllreduceMax _ | AllgatherStatus _, AllgatherStatus _
  | ReduceMax _, ReduceMax _ | ReduceSum _, ReduceSum _ | BcastNumber _, BcastNumber _
  | HatRows, HatRows | TraceReduce, TraceReduce | TraceBcast, TraceBcast => true
  | HatScatter r, HatScatter s | HatReduce r, HatReduce s => Nat.eqb r s
  | _, _ => false
  end.

(** What a process gets out of it. *)
Inductive reply : Type :=
| GotVector (v : nat -> R)
| GotStatuses (l : list bool)
| GotNumber (v : xd)
| GotNothing.

(** The processes whose contribution process [p] cannot do without: all of them for an
    operation with a result everywhere and for the root of a reduction, the root for a
    broadcast or a scatter, nobody otherwise. *)
Definition needs (w p : nat) (c : call) : list nat :=
  match c with
  | AllreduceMax _ | AllgatherStatus _ | HatRows => seq 0 w
  | ReduceMax _ | ReduceSum _ | TraceReduce => if Nat.eqb p 0 then seq 0 w else []
  | HatReduce r => if Nat.eqb p r then seq 0 w else []
  | BcastNumber _ | TraceBcast => [0%nat]
  | HatScatter r => [r]
  end.

(** The contents of a contribution. *)
Definition vector_of (c : call) : nat -> R :=
  match c with AllreduceMax v | ReduceMax v | ReduceSum v => v | _ => fun _ => 0 end.
Definition status_of (c : call) : bool := match c with AllgatherStatus b => b | _ => false end.
Definition number_of (c : call) : xd := match c with BcastNumber v => v | _ => XN end.

(** The result of a collective operation for process [p], from the calls [f q] of the
    processes (those that [p] needs). *)
Definition combine_calls (w p : nat) (c : call) (f : nat -> call) : reply :=
  match c with
  | AllreduceMax _ => GotVector (max_over (map (fun q => vector_of (f q)) (seq 0 w)))
  | AllgatherStatus _ => GotStatuses (map (fun q => status_of (f q)) (seq 0 w))
  | ReduceMax _ => if Nat.eqb p 0 then GotVector (max_over (map (fun q => vector_of (f q)) (seq 0 w))) else GotNothing
  | ReduceSum _ => if Nat.eqb p 0 then GotVector (fun i => lsum (map (fun q => vector_of (f q) i) (seq 0 w))) else GotNothing
  | BcastNumber _ => GotNumber (number_of (f 0%nat))
  | _ => GotNothing
  end.

(** Where an exception comes from: the bandwidth search (no usable criterion), the fit of
    a variable to a response with a bandwidth, or nowhere (these cannot happen). *)
Inductive exn : Type := InSelection | InFit (v : nat) (yi : nat -> R) (b : weight) | Impossible.

(** What a process still has to do: it has returned, it has thrown, or it is inside a
    collective operation. *)
Inductive proc (A : Type) : Type :=
| Ret (a : A)
| Err (e : exn)
| Call (c : call) (k : reply -> proc A).
Arguments Ret {A} a.
Arguments Err {A} e.
Arguments Call {A} c k.

Fixpoint bind {A B : Type} (m : proc A) (f : A -> proc B) : proc B :=
  match m with
  | Ret a => f a
  | Err e => Err e
  | Call c k => Call c (fun r => bind (k r) f)
  end.

(** All processes: the collective operations each has left, and the rest. *)
Definition config (A : Type) : Type := nat -> list call * proc A.

Definition upd {B : Type} (f : nat -> B) (i : nat) (b : B) : nat -> B := fun j => if Nat.eqb j i then b else f j.

(** The [i]-th collective operation process [q] has entered. *)
Definition entered {A : Type} (st : list call * proc A) (i : nat) : option call :=
  match snd st with
  | Call c _ => nth_error (fst st ++ [c]) i
  | _ => nth_error (fst st) i
  end.

(** A process leaves its collective operation as soon as all the processes it has to wait
    for have entered the operation of the same number; these must belong together (otherwise
    the program is erroneous; here the process waits for ever).  It has to wait for those it
    needs; whether an operation also waits for the others is up to the implementation of MPI
    ([sync p i]: the i-th operation of process p does). *)
Inductive step {A : Type} (w : nat) (sync : nat -> nat -> bool) : config A -> config A -> Prop :=
| leave : forall st p past c k f, (p < w)%nat -> st p = (past, Call c k) ->
    (forall q, In q (if sync p (length past) then seq 0 w else needs w p c) ->
       entered (st q) (length past) = Some (f q) /\ fits_with c (f q) = true) ->
    step w sync st (upd st p (past ++ [c], k (combine_calls w p c f))).

Inductive moves {A : Type} (w : nat) (sync : nat -> nat -> bool) : nat -> config A -> config A -> Prop :=
| mv_none : forall c, moves w sync 0 c c
| mv_one : forall k c d e, moves w sync k c d -> step w sync d e -> moves w sync (S k) c e.

Definition start {A : Type} (prog : nat -> proc A) : config A := fun p => ([], prog p).

(** ** The algorithm *)

(** GWRMultiscale.h, BandwidthInitilizeType, BandwidthSelectionCriterionType,
    BackFittingCriterionType. *)
Inductive init_type := INull | IInitial | ISpecified.
Inductive approach := CV | AIC.
Inductive crit_type := CVR | dCVR.

(** The places where the telegram is asked whether to stop: 143, 190, 199, 226 (fit); 298,
    310, 314, 364, 380 (backfitting); 250 (fit); in the loops over locations: iteration (0 before
    the back-fitting), variable, number of the evaluation, location; iteration, variable, location. *)
Inductive place : Type :=
| AtInitialFit | AtReady | AtInit (v : nat) | AfterInit (v : nat)
| AtBackfitting | AtIteration (it : nat) | AtVariable (it v : nat) | AfterSelection (it v : nat)
| AfterIterations | AfterBackfitting
| InCriterion (it v k i : nat) | InFitting (it v i : nat).

(** What fit returns: zeros after a cancellation, or coefficients, with the bandwidths in use. *)
Inductive answer : Type := Cancelled | Fitted (betas : nat -> nat -> R) (ws : nat -> weight).

(** Variables of backfitting and members: betas, resid, mSpatialWeights, mBandwidthInitilize,
    bwChangeNo. *)
Record bstate : Type := mkB {
  bs_betas : nat -> nat -> R; bs_resid : nat -> R; bs_w : nat -> weight;
  bs_init : nat -> init_type; bs_chg : nat -> nat }.

Section Algorithm.
(** Numbers of observations and variables; mX by columns, mY. *)
Variables n nvar : nat.
Variables (x : nat -> nat -> R) (y : nat -> R).
(** mHasHatMatrix, mBandwidthSelectionApproach, the bounds of the searches, mBandwidthSelectThreshold,
    mBandwidthSelectRetryTimes, mMaxIteration, mCriterionType, mCriterionThreshold. *)
Variable hat : bool.
Variable appr : nat -> approach.
Variables lower upper : nat -> R.
Variable threshold : nat -> R.
Variables retry maxiter : nat.
Variable ctype : crit_type.
Variable cthreshold : R.

(** Everything that follows is the code of one process.  Its telegram: *)
Variable stop : place -> bool.
(** mBandwidthSizeCriterion and mFitVar: criterion of evaluation [k], status flag (mStatus is
    Terminated) before and after; coefficients of a variable. *)
Variable criterion : nat -> nat -> (nat -> R) -> nat -> weight -> bool -> proc (xd * bool).
Variable fit_var : nat -> nat -> (nat -> R) -> weight -> bool -> proc ((nat -> R) * bool).
(** The collective operations of the hat matrix after the back-fitting. *)
Variable traces : list call.

(** BandwidthSelector::optimize (golden_plan of MpiSelGoldModel) with getCriterion (h 577-581); 103
    evaluations are never reached. *)
Fixpoint search (fuel it v : nat) (yi : nat -> R) (w0 : weight) (h : list (bool * xd)) (term : bool) : proc (weight * bool) :=
  match golden_plan w0 (lower v) (upper v) [] h with
  | Return Original => Ret (w0, term)
  | Return (Fresh b) => Ret (b, term)
  | Return Thrown => Err InSelection
  | Return Diverged => Err Impossible
  | Ask b =>
      match fuel with
      | O => Err Impossible
      | S f => bind (criterion it v yi (length h) b term) (fun r =>
                 search f it v yi w0 (h ++ [(negb (snd r), fst r)]) (snd r))
      end
  end.
Definition select (it v : nat) (yi : nat -> R) (w0 : weight) (term : bool) : proc (weight * bool) :=
  search 103 it v yi w0 [] term.

(** Selection in backfitting (318-360). *)
Definition select_var (it v : nat) (yi : nat -> R) (s : bstate) (term : bool) : proc (bstate * bool) :=
  match bs_init s v with
  | ISpecified => Ret (s, term)
  | _ => bind (select it v yi (bs_w s v) term) (fun r =>
           let changed := Rltb (threshold v) (Rabs (wvalue (fst r) - wvalue (bs_w s v))) in
           let c := if changed then 0%nat else S (bs_chg s v) in
           Ret (mkB (bs_betas s) (bs_resid s) (upd (bs_w s) v (fst r))
                  (if negb changed && Nat.leb retry c then upd (bs_init s) v ISpecified else bs_init s)
                  (upd (bs_chg s) v c), snd r))
  end.

(** Fitted, RSS. *)
Definition fitted_at (b : nat -> nat -> R) (i : nat) : R := bigsum nvar (fun v => x v i * b v i).
Definition residual (b : nat -> nat -> R) : nat -> R := fun i => y i - fitted_at b i.
Definition rss_of (b : nat -> nat -> R) : R := bigsum n (fun i => residual b i * residual b i).

(** The loop over the variables (312-370). *)
Fixpoint sweep (it : nat) (vs : list nat) (s : bstate) (term : bool) : proc (bstate * bool) :=
  match vs with
  | [] => Ret (s, term)
  | v :: t =>
      if stop (AtVariable it v) then Ret (s, true)
      else
        let yi := fun i => bs_resid s i + bs_betas s v i * x v i in
        bind (select_var it v yi s term) (fun r =>
          let s1 := fst r in
          if stop (AfterSelection it v) then Ret (s1, true)
          else bind (fit_var it v yi (bs_w s1 v) (snd r)) (fun q =>
                 let b := upd (bs_betas s1) v (fst q) in
                 sweep it t (mkB b (residual b) (bs_w s1) (bs_init s1) (bs_chg s1)) (snd q)))
  end.

(** The criterion of convergence (372-374). *)
Definition change (rss0 rss1 : R) : xd :=
  match ctype with
  | CVR => XF (Rabs (rss1 - rss0))
  | dCVR => xsqrt (xdiv (XF (Rabs (rss1 - rss0))) (XF rss1))
  end.

(** The loop over the iterations (308-378); [k] are left. *)
Fixpoint iterate (k it : nat) (rss0 : R) (crit : xd) (s : bstate) (term : bool) : proc (bstate * bool) :=
  match k with
  | O => Ret (s, term)
  | S k' =>
      if xltb (XF cthreshold) crit then
        if stop (AtIteration it) then Ret (s, true)
        else bind (sweep it (seq 0 nvar) s term) (fun r =>
               let rss1 := rss_of (bs_betas (fst r)) in
               iterate k' (S it) rss1 (change rss0 rss1) (fst r) (snd r))
      else Ret (s, term)
  end.

(** backfitting (293-385): the coefficients it returns are zeros when it is told to stop at
    its beginning. *)
Definition backfitting (s : bstate) (term : bool) : proc (bstate * bool) :=
  if stop AtBackfitting then Ret (mkB (fun _ _ => 0) (bs_resid s) (bs_w s) (bs_init s) (bs_chg s), true)
  else bind (iterate maxiter 1 (rss_of (bs_betas s)) (XF DBL_MAX) s term) (fun r =>
         Ret (fst r, if stop AfterIterations then true else snd r)).

Fixpoint then_calls {A : Type} (l : list call) (m : proc A) : proc A :=
  match l with [] => m | c :: t => Call c (fun _ => then_calls t m) end.

(** fit from 248 on. *)
Definition finish (s : bstate) (term : bool) : proc answer :=
  bind (backfitting s term) (fun r =>
    if stop AfterBackfitting then Ret Cancelled
    else then_calls (if hat then traces else []) (Ret (Fitted (bs_betas (fst r)) (bs_w (fst r))))).

(** The initial bandwidths (192-227). *)
Fixpoint initial (vs : list nat) (s : bstate) (term : bool) : proc answer :=
  match vs with
  | [] => finish s term
  | v :: t =>
      if stop (AtInit v) then finish s true
      else
        bind (match bs_init s v with
              | INull => bind (select 0 v y (bs_w s v) term) (fun r =>
                           Ret (mkB (bs_betas s) (bs_resid s) (upd (bs_w s) v (fst r)) (bs_init s) (bs_chg s), snd r))
              | _ => Ret (s, term)
              end)
             (fun r => if stop (AfterInit v) then Ret Cancelled else initial t (fst r) (snd r))
  end.

(** fit from 143 on; [b0] are the coefficients of the basic GWR. *)
Definition fit (b0 : nat -> nat -> R) (w0 : nat -> weight) (i0 : nat -> init_type) : proc answer :=
  if stop AtInitialFit then Ret Cancelled
  else if stop AtReady then Ret Cancelled
  else initial (seq 0 nvar) (mkB b0 (residual b0) w0 i0 (fun _ => 0%nat)) false.
End Algorithm.

(** ** The function pointers *)
Section Pointers.
Variables n nvar : nat.
Variable x : nat -> nat -> R.
Variable hat : bool.
Variable appr : nat -> approach.
(** The local regression of variable v at location i without observation i; with it, together with the
    i-th diagonal element of the hat matrix.  [None]: the inverse throws. *)
Variable loo : nat -> (nat -> R) -> weight -> nat -> option R.
Variable loc : nat -> (nat -> R) -> weight -> nat -> option (R * R).

(** fitVarCoreCVSerial (547-574), fitVarCoreSHatSerial (576-607) on a range ([core] of
    MsCritModel; only the first of the two statistics is used). *)
Definition cv_loop (stop : nat -> bool) (v : nat) (yi : nat -> R) (b : weight) (r : nat * nat) :=
  core (fun i => option_map (fun c => (c, fun _ => 0)) (loo v yi b i)) stop (visited r) (fun _ => 0) (fun _ => 0).
Definition aic_loop (stop : nat -> bool) (v : nat) (yi : nat -> R) (b : weight) (r : nat * nat) :=
  core (fun i => option_map (fun c => (fst c, fun _ => snd c)) (loc v yi b i)) stop (visited r) (fun _ => 0) (fun _ => 0).
Definition part_loop (stop : nat -> bool) (v : nat) (yi : nat -> R) (b : weight) (r : nat * nat) :=
  match appr v with CV => cv_loop stop v yi b r | AIC => aic_loop stop v yi b r end.
Definition value (v : nat) (yi beta : nat -> R) (tr : R) : xd :=
  match appr v with CV => XF (cv_of n (x v) yi beta) | AIC => aic_of n (x v) yi beta tr end.

(** fitVarCoreSerial (489-545): a location that fails keeps its zero, and the exception is
    thrown after the loop.  Coefficients, whether one has failed, whether it was stopped. *)
Fixpoint fit_loop (local : nat -> option R) (stop : nat -> bool) (idx : list nat) (beta : nat -> R) (failed : bool)
  : (nat -> R) * bool * bool :=
  match idx with
  | [] => (beta, failed, false)
  | i :: t => if stop i then (beta, failed, true)
              else match local i with
                   | Some c => fit_loop local stop t (update beta i c) failed
                   | None => fit_loop local stop t beta true
                   end
  end.
Definition fit_range (stop : nat -> bool) (v : nat) (yi : nat -> R) (b : weight) (r : nat * nat) :=
  fit_loop (fun i => option_map fst (loc v yi b i)) stop (visited r) (fun _ => 0) false.

(** One process alone: bandwidthSizeCriterionVarCVBase, ...AICBase (400-447), fitVarBase (387-398). *)
Definition criterion_base (stop : place -> bool) (it v : nat) (yi : nat -> R) (k : nat) (b : weight) (term : bool) : proc (xd * bool) :=
  match part_loop (fun i => stop (InCriterion it v k i)) v yi b (0, n)%nat with
  | None => Ret (XF DBL_MAX, term)
  | Some (beta, s, stopped) =>
      let term' := term || stopped in
      let val := value v yi beta (s 0%nat) in
      Ret (if negb term' && is_finite val then val else XF DBL_MAX, term')
  end.
Definition fit_var_base (stop : place -> bool) (it v : nat) (yi : nat -> R) (b : weight) (term : bool) : proc ((nat -> R) * bool) :=
  let '(beta, failed, stopped) := fit_range (fun i => stop (InFitting it v i)) v yi b (0, n)%nat in
  if failed then Err (InFit v yi b) else Ret (beta, term || stopped).

(** Process [p] of [w], with mWorkRangeSize [size]: bandwidthSizeCriterionVarCVMpi, ...AICMpi
    (964-1042).  Before the broadcast only the master has the value (the others hand over a variable
    that is not initialised and not read: [XN]). *)
Variables w size p : nat.
Definition criterion_mpi (stop : place -> bool) (it v : nat) (yi : nat -> R) (k : nat) (b : weight) (term : bool) : proc (xd * bool) :=
  let part := part_loop (fun i => stop (InCriterion it v k i)) v yi b (work_range n size p) in
  let term' := term || match part with Some (_, _, stopped) => stopped | None => false end in
  Call (AllgatherStatus (match part with Some _ => true | None => false end)) (fun a =>
    match a, part with
    | GotStatuses l, Some (beta, s, _) =>
        if negb (forallb (fun ok => ok) l) then Ret (XF DBL_MAX, term')
        else
          Call (ReduceMax beta) (fun a1 =>
          let share val := Call (BcastNumber val) (fun a2 =>
            match a2 with
            | GotNumber c => Ret (if negb term' && is_finite c then c else XF DBL_MAX, term')
            | _ => Err Impossible
            end) in
          let mine tr := match a1 with GotVector all => value v yi all tr | _ => XN end in
          match appr v with
          | CV => share (mine 0)
          | AIC => Call (ReduceSum s) (fun a3 => share (mine (match a3 with GotVector t => t 0%nat | _ => 0 end)))
          end)
    | GotStatuses l, None => if negb (forallb (fun ok => ok) l) then Ret (XF DBL_MAX, term') else Err Impossible
    | _, _ => Err Impossible
    end).

(** mat_mul_mpi (armampi.cpp 8-25): one MPI_Allgather, then for each process a scatter and a
    reduction. *)
Definition hat_calls : list call := HatRows :: flat_map (fun r => [HatScatter r; HatReduce r]) (seq 0 w).
Definition trace_calls : list call := [TraceReduce; TraceBcast].

(** fitVarMpi (947-962). *)
Definition fit_var_mpi (stop : place -> bool) (it v : nat) (yi : nat -> R) (b : weight) (term : bool) : proc ((nat -> R) * bool) :=
  let '(beta, failed, stopped) := fit_range (fun i => stop (InFitting it v i)) v yi b (work_range n size p) in
  if failed then Err (InFit v yi b)
  else Call (AllreduceMax beta) (fun a =>
         match a with
         | GotVector all => then_calls (if hat then hat_calls else []) (Ret (all, term || stopped))
         | _ => Err Impossible
         end).
End Pointers.

(** ** The programs *)
Section Programs.
Variables n nvar : nat.
Variables (x : nat -> nat -> R) (y : nat -> R).
Variable hat : bool.
Variable appr : nat -> approach.
Variables lower upper threshold : nat -> R.
Variables retry maxiter : nat.
Variable ctype : crit_type.
Variable cthreshold : R.
Variable loo : nat -> (nat -> R) -> weight -> nat -> option R.
Variable loc : nat -> (nat -> R) -> weight -> nat -> option (R * R).
Variables (b0 : nat -> nat -> R) (w0 : nat -> weight) (i0 : nat -> init_type).

Definition program_base (stop : place -> bool) : proc answer :=
  fit n nvar x y hat lower upper threshold retry maxiter ctype cthreshold stop
    (criterion_base n x appr loo loc stop) (fit_var_base n loc stop) [] b0 w0 i0.
Definition program_mpi (w size : nat) (stop : nat -> place -> bool) (p : nat) : proc answer :=
  fit n nvar x y hat lower upper threshold retry maxiter ctype cthreshold (stop p)
    (criterion_mpi n x appr loo loc size p (stop p)) (fit_var_mpi n hat loc w size p (stop p)) trace_calls b0 w0 i0.
End Programs.

(** The local regressions themselves (555-565, 589-600 and 507-517): weights [wt] by variable and
    bandwidth. *)
Definition loo_of (inv1 : R -> option R) (n : nat) (x : nat -> nat -> R) (wt : nat -> weight -> nat -> nat -> R)
    (v : nat) (yi : nat -> R) (b : weight) (i : nat) : option R :=
  option_map fst (cv_local inv1 n (x v) yi (wt v b) i).
Definition loc_of (inv1 : R -> option R) (n : nat) (x : nat -> nat -> R) (wt : nat -> weight -> nat -> nat -> R)
    (v : nat) (yi : nat -> R) (b : weight) (i : nat) : option (R * R) :=
  option_map (fun c => (fst c, snd c 0%nat)) (shat_local inv1 n (x v) yi (wt v b) i).
