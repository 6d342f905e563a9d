(** Model of the bandwidth criteria of one variable in multiscale GWR, and of its diagnostics.
    Source: GWRMultiscale.cpp:400-422 (bandwidthSizeCriterionVarCVBase), 424-447 (...AICBase),
    547-574 (fitVarCoreCVSerial), 576-607 (fitVarCoreSHatSerial), 682-714 (fitVarCoreCVOmp),
    716-750 (fitVarCoreSHatOmp), 965-1001 (...CVMpi), 1003-1041 (...AICMpi), 53-76 (CalcDiagnostic),
    252-280 (end of fit).
    mXi and mYi are the functions x and y of the location; w i is sw.weightVector(i).  With a single
    variable xtw * x and xtw * y are 1x1 matrices, written as numbers; [inv1] is arma::inv_sympd on them
    ([None]: it throws).  Sums are exact.  Progress and log messages are not modelled. *)
From Coq Require Import Reals Bool List Arith.
From Verif Require Import Outcome XReal Sums DiagModel OmpModel MpiModel.
Import ListNotations.
Local Open Scope R_scope.

Section Crit.
Variable inv1 : R -> option R.
Variable n : nat.
Variables (x y : nat -> R) (w : nat -> nat -> R).

(** "xtw * x" and "xtw * y" for the weights v *)
Definition xtwx (v : nat -> R) : R := bigsum n (fun j => x j * v j * x j).
Definition xtwy (v : nat -> R) : R := bigsum n (fun j => x j * v j * y j).
(** "w(i) = 0.0" *)
Definition zeroed (i : nat) (v : nat -> R) : nat -> R := fun j => if Nat.eqb j i then 0 else v j.

(** ** The loops: location i gives its coefficient and its two statistics, or fails. *)
Definition cv_local (i : nat) : option (R * (nat -> R)) :=
  match inv1 (xtwx (zeroed i (w i))) with
  | Some a => Some (a * xtwy (zeroed i (w i)), fun _ => 0)
  | None => None
  end.
(** ci = xtwx_inv * xtw; si = x(i) * ci; shat(0) += si(0, i); shat(1) += si * si' *)
Definition shat_row (a : R) (i j : nat) : R := x i * (a * (x j * w i j)).
Definition shat_local (i : nat) : option (R * (nat -> R)) :=
  match inv1 (xtwx (w i)) with
  | Some a => Some (a * xtwy (w i), fun k => match k with
                                            | O => shat_row a i i
                                            | _ => bigsum n (fun j => shat_row a i j * shat_row a i j)
                                            end)
  | None => None
  end.
(** Serial loops: an exception leaves the function at once ([None]); the telegram is asked at every
    location.  The last component says whether it stopped the loop. *)
Fixpoint core (local : nat -> option (R * (nat -> R))) (stop : nat -> bool) (idx : list nat)
    (beta : nat -> R) (shat : nat -> R) : option ((nat -> R) * (nat -> R) * bool) :=
  match idx with
  | [] => Some (beta, shat, false)
  | i :: t => if stop i then Some (beta, shat, true)
              else match local i with
                   | None => None
                   | Some (b, s) => core local stop t (update beta i b) (fun k => shat k + s k)
                   end
  end.
Definition fit_var_cv (lo hi : nat) (stop : nat -> bool) :=
  core cv_local stop (seq lo (hi - lo)) (fun _ => 0) (fun _ => 0).
Definition fit_var_shat (lo hi : nat) (stop : nat -> bool) :=
  core shat_local stop (seq lo (hi - lo)) (fun _ => 0) (fun _ => 0).

(** ** The criteria.  [terminated]: mStatus before the call.  isfinite holds for an exact sum. *)
Definition cv_of (beta : nat -> R) : R :=
  bigsum n (fun i => (y i - x i * beta i) * (y i - x i * beta i)).
Definition aic_of (beta : nat -> R) (tr : R) : xd :=
  base_aicc n 1 (fun i _ => x i) (fun i _ => beta i) y tr.
Definition is_finite (v : xd) : bool := match v with XF _ => true | XNZ => true | _ => false end.

Definition cv_base (terminated : bool) (stop : nat -> bool) : xd :=
  match fit_var_cv 0 n stop with
  | Some (beta, _, stopped) => if negb (terminated || stopped) then XF (cv_of beta) else XF DBL_MAX
  | None => XF DBL_MAX
  end.
Definition aic_base (terminated : bool) (stop : nat -> bool) : xd :=
  match fit_var_shat 0 n stop with
  | Some (beta, shat, stopped) =>
      let value := aic_of beta (shat 0%nat) in
      if negb (terminated || stopped) && is_finite value then value else XF DBL_MAX
  | None => XF DBL_MAX
  end.

(** The same functions with the OpenMP loops (OmpModel.v; no cancellation there).  [None] would be
    the end of the program. *)
Definition cv_omp (threads : nat) (sched : list event) : option xd :=
  match omp_run R 0 cv_local GWRMultiscale_fitVarCoreCVOmp threads sched with
  | Returned beta _ => Some (XF (cv_of beta))
  | Raised | Invalid => Some (XF DBL_MAX)
  | Terminated => None
  end.
Definition aic_omp (threads : nat) (sched : list event) : option xd :=
  match omp_run R 0 shat_local GWRMultiscale_fitVarCoreSHatOmp threads sched with
  | Returned beta shat => let value := aic_of beta (shat 0%nat) in
                          Some (if is_finite value then value else XF DBL_MAX)
  | Raised | Invalid => Some (XF DBL_MAX)
  | Terminated => None
  end.

(** With MPI each process runs the serial loop on its range; if one fails all return DBL_MAX.
    Otherwise the coefficients are combined by MPI_MAX and the statistics by MPI_SUM.
    Simplification: no cancellation. *)
Definition max_over (l : list (nat -> R)) (i : nat) : R :=
  match l with
  | [] => 0
  | h :: t => fold_left (fun acc f => Rmax acc (f i)) t (h i)
  end.
Fixpoint collect {A : Type} (l : list (option A)) : option (list A) :=
  match l with
  | [] => Some []
  | None :: _ => None
  | Some a :: t => match collect t with Some r => Some (a :: r) | None => None end
  end.
Definition on_ranges (run : nat -> nat -> option ((nat -> R) * (nat -> R) * bool)) (workers : nat)
  : outcome (option (list ((nat -> R) * (nat -> R) * bool))) :=
  let* size := range_size n workers in
  Ok (collect (map (fun id => run (fst (work_range n size id)) (snd (work_range n size id))) (seq 0 workers))).
Definition cv_mpi (workers : nat) : outcome xd :=
  let* r := on_ranges (fun lo hi => fit_var_cv lo hi (fun _ => false)) workers in
  Ok (match r with
      | None => XF DBL_MAX
      | Some parts => XF (cv_of (max_over (map (fun p => fst (fst p)) parts)))
      end).
Definition aic_mpi (workers : nat) : outcome xd :=
  let* r := on_ranges (fun lo hi => fit_var_shat lo hi (fun _ => false)) workers in
  Ok (match r with
      | None => XF DBL_MAX
      | Some parts =>
          let value := aic_of (max_over (map (fun p => fst (fst p)) parts))
                         (lsum (map (fun p => snd (fst p) 0%nat) parts)) in
          if is_finite value then value else XF DBL_MAX
      end).
End Crit.

(** ** Diagnostics: CalcDiagnostic leaves the member AIC without a value ([None]).
    [S0] is mS0, empty when the hat matrix is not wanted. *)
Record ms_diagnostic := MsDiag {
  d_RSS : R; d_AIC : option xd; d_AICc : xd; d_ENP : R; d_EDF : R; d_R2 : xd; d_R2adj : xd }.
Definition ms_calc (n : nat) (y : nat -> R) (s0 s1 rss : R) : ms_diagnostic :=
  let d := diag_from (INR n) rss (yss_of n y) s0 s1 in
  MsDiag (RSSv d) None (AICc d) (ENP d) (EDF d) (R2 d) (R2adj d).
(** trace(mS0) and trace(mS0 * mS0.t()) *)
Definition trace1 (n : nat) (S0 : nat -> nat -> R) : R := bigsum n (fun i => S0 i i).
Definition trace2 (n : nat) (S0 : nat -> nat -> R) : R := bigsum n (fun i => bigsum n (fun k => S0 i k * S0 i k)).
Definition ms_diag (hat : bool) (n : nat) (y : nat -> R) (S0 : nat -> nat -> R) (rss : R) : ms_diagnostic :=
  if hat then ms_calc n y (trace1 n S0) (trace2 n S0) rss else ms_calc n y 0 0 rss.
