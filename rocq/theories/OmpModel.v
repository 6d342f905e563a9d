(** Model of the OpenMP loops over locations.
    Source: the loops after "#pragma omp parallel for" in GWRBasic.cpp, GTWR.cpp,
    GWDR.cpp, GWRRobust.cpp, GWRMultiscale.cpp, GWRLocalCollinearity.cpp,
    GWRGeneralized.cpp, GWSS.cpp
    (src/gwmodelpp).

    An iteration is two events: it begins by reading the shared flag
    ([if (success)] / [if (flag)]) and ends by writing its own column of betas, adding
    its statistics to the accumulators of its thread, or recording its failure.
    Any two iterations of different threads may overlap, so the events of different
    iterations interleave freely.
    Simplifications: doubles are reals, so the order of additions does not matter; the
    unsynchronised accesses to the flag are atomic (formally a data race); the status
    is Success throughout (no cancellation); columns other than an iteration's own are
    never written (they are local variables or indexed by i). *)
From Coq Require Import Reals Bool List Arith.
From Verif Require Import Outcome Sums.
Import ListNotations.
Local Open Scope R_scope.

Inductive event := Begin (i : nat) | End_ (t i : nat).

(** How a loop treats a failing location. *)
Inductive policy :=
| Rethrow      (* success = false, exception thrown after the loop *)
| Report       (* flag = false, the criterion DBL_MAX is returned *)
| Swallow      (* flag = false, the remaining locations are skipped, no report *)
| NeverSet     (* the exception is stored, the flag is not cleared *)
| Escape.      (* no try block: the exception leaves the parallel region *)

(** The loops of the library (file:lines of the loop) and what they do. *)
Inductive omp_loop :=
| GWRBasic_predictOmp          (* GWRBasic.cpp:427-455 *)
| GWRBasic_fitCoreOmp          (* GWRBasic.cpp:471-514 *)
| GWRBasic_fitCoreCVOmp        (* GWRBasic.cpp:522-546 *)
| GWRBasic_fitCoreSHatOmp      (* GWRBasic.cpp:555-584 *)
| GTWR_predictOmp              (* GTWR.cpp:289-317 *)
| GTWR_fitOmp                  (* GTWR.cpp:330-372 *)
| GTWR_criterionCVOmp          (* GTWR.cpp:381-417 *)
| GTWR_criterionAICOmp         (* GTWR.cpp:427-468 *)
| GWRRobust_fitOmp             (* GWRRobust.cpp:180-222 *)
| GWDR_predictOmp              (* GWDR.cpp:169-205 *)
| GWDR_fitOmp                  (* GWDR.cpp:270-319 *)
| GWDR_criterionCVOmp          (* GWDR.cpp:375-417; the pragma is missing, so it is one
                                  particular schedule *)
| GWDR_criterionAICOmp         (* GWDR.cpp:476-520 *)
| GWDR_indepVarCriterionOmp    (* GWDR.cpp:646-687 *)
| GWRMultiscale_fitVarCoreOmp      (* GWRMultiscale.cpp:626-678; no guard *)
| GWRMultiscale_fitVarCoreCVOmp    (* GWRMultiscale.cpp:688-711 *)
| GWRMultiscale_fitVarCoreSHatOmp  (* GWRMultiscale.cpp:721-750 *)
| GWRLocalCollinearity_criterionCVOmp  (* GWRLocalCollinearity.cpp:279-314 *)
| GWRLocalCollinearity_fitOmp          (* GWRLocalCollinearity.cpp:428-468 *)
| GWRLocalCollinearity_predictOmp      (* GWRLocalCollinearity.cpp:486-515 *)
| GWRGeneralized_fitPoissonOmp         (* GWRGeneralized.cpp:327-363, with hat matrix; no guard *)
| GWRGeneralized_fitBinomialOmp        (* GWRGeneralized.cpp:423-456, with hat matrix; no guard *)
| GWRGeneralized_criterionCVOmp        (* GWRGeneralized.cpp:638-657 *)
| GWRGeneralized_criterionAICOmp       (* GWRGeneralized.cpp:736-749 *)
| GWSS_GWAverageOmp                    (* GWSS.cpp:182-206; a column is the rows i of the tables *)
| GWSS_GWCorrelationOmp.               (* GWSS.cpp:221-247 *)

Definition policy_of (f : omp_loop) : policy :=
  match f with
  | GWRBasic_predictOmp | GWRBasic_fitCoreOmp | GTWR_predictOmp | GTWR_fitOmp
  | GWRRobust_fitOmp | GWDR_predictOmp | GWRMultiscale_fitVarCoreOmp
  | GWRGeneralized_fitPoissonOmp | GWRGeneralized_fitBinomialOmp => Rethrow
  | GTWR_criterionCVOmp | GTWR_criterionAICOmp | GWDR_criterionCVOmp
  | GWDR_criterionAICOmp | GWDR_indepVarCriterionOmp => Report
  | GWRBasic_fitCoreCVOmp | GWRBasic_fitCoreSHatOmp
  | GWRMultiscale_fitVarCoreCVOmp | GWRMultiscale_fitVarCoreSHatOmp => Swallow
  | GWDR_fitOmp => NeverSet
  | GWRLocalCollinearity_criterionCVOmp | GWRLocalCollinearity_fitOmp
  | GWRLocalCollinearity_predictOmp | GWRGeneralized_criterionCVOmp
  | GWRGeneralized_criterionAICOmp | GWSS_GWAverageOmp | GWSS_GWCorrelationOmp => Escape
  end.

(** Whether iterations test the flag first. *)
Definition guarded (f : omp_loop) : bool :=
  match f with
  | GWRMultiscale_fitVarCoreOmp | GWRLocalCollinearity_criterionCVOmp
  | GWRLocalCollinearity_fitOmp | GWRLocalCollinearity_predictOmp
  | GWRGeneralized_fitPoissonOmp | GWRGeneralized_fitBinomialOmp
  | GWRGeneralized_criterionCVOmp | GWRGeneralized_criterionAICOmp
  | GWSS_GWAverageOmp | GWSS_GWCorrelationOmp => false
  | _ => true
  end.

Section Loop.
Variable B : Type.                                  (* a column of betas *)
Variable zero : B.
(** The local regression at location i: its column and its statistics (numbered: the
    entries of shat, of qDiag, the criterion term), or a failure. *)
Variable local : nat -> option (B * (nat -> R)).
Variables lo hi : nat.                              (* range of the loop *)

(** ** Serial loop (e.g. GWRBasic.cpp:258-286): stops at the first failure. *)
Definition update {A : Type} (f : nat -> A) (i : nat) (x : A) : nat -> A :=
  fun j => if Nat.eqb j i then x else f j.
Fixpoint serial_from (idx : list nat) (betas : nat -> B) (acc : nat -> R)
  : outcome ((nat -> B) * (nat -> R)) :=
  match idx with
  | [] => Ok (betas, acc)
  | i :: t => match local i with
              | None => Throw
              | Some (b, c) => serial_from t (update betas i b) (fun k => acc k + c k)
              end
  end.
Definition serial_run : outcome ((nat -> B) * (nat -> R)) :=
  serial_from (seq lo (hi - lo)) (fun _ => zero) (fun _ => 0).

(** ** Parallel loop *)
Record pstate := mkP {
  flag : bool;                  (* success / flag *)
  started : nat -> bool;        (* iteration found the flag set *)
  betas : nat -> B;
  acc : nat -> nat -> R;        (* per thread, per statistic *)
  dead : bool                   (* an exception left the parallel region *)
}.
Definition p0 : pstate := mkP true (fun _ => false) (fun _ => zero) (fun _ _ => 0) false.

Definition step (f : omp_loop) (st : pstate) (e : event) : pstate :=
  match e with
  | Begin i =>
      mkP (flag st) (update (started st) i (flag st || negb (guarded f)))
        (betas st) (acc st) (dead st)
  | End_ t i =>
      if started st i then
        match local i with
        | Some (b, c) =>
            mkP (flag st) (started st) (update (betas st) i b)
              (update (acc st) t (fun k => acc st t k + c k)) (dead st)
        | None =>
            match policy_of f with
            | NeverSet => st
            | Escape => mkP (flag st) (started st) (betas st) (acc st) true
            | _ => mkP false (started st) (betas st) (acc st) (dead st)
            end
        end
      else st
  end.

(** After the loop: statistics are summed over the threads, except that the AIC criterion of
    generalised GWR takes "trS(0)" (GWRGeneralized.cpp:753). *)
Definition gather (f : omp_loop) (threads : nat) (acc : nat -> nat -> R) (k : nat) : R :=
  match f with
  | GWRGeneralized_criterionAICOmp => acc 0%nat k
  | _ => bigsum threads (fun t => acc t k)
  end.
(** Outcome of the loop.
    [Invalid] is the criterion value DBL_MAX; [Terminated] is std::terminate. *)
Inductive presult :=
| Returned (b : nat -> B) (s : nat -> R)
| Raised
| Invalid
| Terminated.
Definition omp_run (f : omp_loop) (threads : nat) (sched : list event) : presult :=
  let st := fold_left (step f) sched p0 in
  if dead st then Terminated
  else if flag st then Returned (betas st) (gather f threads (acc st))
  else match policy_of f with
       | Rethrow => Raised
       | Report => Invalid
       | _ => Returned (betas st) (gather f threads (acc st))
       end.
End Loop.
Arguments Returned {B}. Arguments Raised {B}. Arguments Invalid {B}. Arguments Terminated {B}.
Arguments flag {B}. Arguments started {B}. Arguments betas {B}. Arguments acc {B}. Arguments dead {B}.
Arguments mkP {B}.
