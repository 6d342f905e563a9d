(** C39-C40: the OpenMP loops. *)
From Coq Require Import Reals List Arith Lia Lra.
From Verif Require Import Outcome Sums OmpModel OmpSpec OmpProofs.
Import ListNotations.

(** C39: when no location fails (so the serial loop returns), every OpenMP loop listed in
    OmpModel.v but one returns the same coefficients and the same statistics, for every number of
    threads and every schedule.  The exception, the AIC criterion of generalised GWR, is not a
    fit and is the subject of C66. *)
Theorem C39_schedule_independent :
  forall (B : Type) (zero : B) local threads lo hi f sched b s,
  f <> GWRGeneralized_criterionAICOmp ->
  schedule threads lo hi sched ->
  serial_run B zero local lo hi = Ok (b, s) ->
  exists b' s', omp_run B zero local f threads sched = Returned b' s' /\
    (forall i, b' i = b i) /\ (forall k, s' k = s k).
Proof. exact C39_main. Qed.
Print Assumptions C39_schedule_independent.
(** What the serial loop returns, so that the theorem above is not about an opaque
    value: each location its own column, each statistic its sum. *)
Theorem C39_serial_value :
  forall (B : Type) (zero : B) local lo hi (col : nat -> B) (stat : nat -> nat -> R),
  (forall i, lo <= i < hi -> local i = Some (col i, stat i)) ->
  exists b s, serial_run B zero local lo hi = Ok (b, s) /\
    (forall i, lo <= i < hi -> b i = col i) /\
    (forall k, s k = lsum (map (fun i => stat i k) (seq lo (hi - lo)))).
Proof. exact serial_value. Qed.
Print Assumptions C39_serial_value.
Example C39_case : schedule 2 0 2 overlap /\
  exists b s, serial_run nat 0 (fun i => Some (i + 5, fun _ => 1%R)) 0 2 = Ok (b, s) /\ b 1 = 6.
Proof. split; [exact overlap_schedule|]. do 2 eexists; split; reflexivity. Qed.

(** C40: for these loops a failure is reported on every schedule exactly when the serial
    loop fails.
    Missing from the full statement: the loops listed in the refutations below. *)
Theorem C40_reported_partial :
  forall (B : Type) (zero : B) local threads lo hi f sched,
  In f [GWRBasic_predictOmp; GWRBasic_fitCoreOmp; GTWR_predictOmp; GTWR_fitOmp;
        GTWR_criterionCVOmp; GTWR_criterionAICOmp; GWRRobust_fitOmp; GWDR_predictOmp;
        GWDR_criterionCVOmp; GWDR_criterionAICOmp; GWDR_indepVarCriterionOmp;
        GWRMultiscale_fitVarCoreOmp; GWRGeneralized_fitPoissonOmp; GWRGeneralized_fitBinomialOmp] ->
  schedule threads lo hi sched ->
  (reported (omp_run B zero local f threads sched) <-> serial_run B zero local lo hi = Throw).
Proof. exact C40_listed. Qed.
Print Assumptions C40_reported_partial.
(** ... fits and predictions by an exception, criteria by the value DBL_MAX ... *)
Theorem C40_how_reported :
  forall (B : Type) (zero : B) local threads lo hi f sched,
  schedule threads lo hi sched -> (exists i, lo <= i < hi /\ local i = None) ->
  (In f [GWRBasic_predictOmp; GWRBasic_fitCoreOmp; GTWR_predictOmp; GTWR_fitOmp;
         GWRRobust_fitOmp; GWDR_predictOmp; GWRMultiscale_fitVarCoreOmp;
         GWRGeneralized_fitPoissonOmp; GWRGeneralized_fitBinomialOmp] ->
     omp_run B zero local f threads sched = Raised) /\
  (In f [GTWR_criterionCVOmp; GTWR_criterionAICOmp; GWDR_criterionCVOmp;
         GWDR_criterionAICOmp; GWDR_indepVarCriterionOmp] ->
     omp_run B zero local f threads sched = Invalid).
Proof. exact C40_how_main. Qed.
Print Assumptions C40_how_reported.
(** ... and the serial loop fails exactly when some location does. *)
Theorem C40_serial : forall (B : Type) (zero : B) local lo hi,
  serial_run B zero local lo hi = Throw <-> exists i, lo <= i < hi /\ local i = None.
Proof. exact serial_throw_iff. Qed.
Print Assumptions C40_serial.
Example C40_case : schedule 2 0 2 overlap /\
  serial_run nat 0 (fun i => if Nat.eqb i 1 then None else Some (i, fun _ => 1%R)) 0 2 = Throw.
Proof. split; [exact overlap_schedule|reflexivity]. Qed.

(** C40 refuted for the criterion cores of basic and multiscale GWR: whatever fails and
    whatever the schedule, they return normally, while the serial cores throw. *)
Theorem C40_criteria_refuted :
  forall (B : Type) (zero : B) local threads lo hi f sched,
  In f [GWRBasic_fitCoreCVOmp; GWRBasic_fitCoreSHatOmp;
        GWRMultiscale_fitVarCoreCVOmp; GWRMultiscale_fitVarCoreSHatOmp] ->
  schedule threads lo hi sched -> (exists i, lo <= i < hi /\ local i = None) ->
  serial_run B zero local lo hi = Throw /\
  exists b s, omp_run B zero local f threads sched = Returned b s.
Proof. exact C40_swallowed. Qed.
Print Assumptions C40_criteria_refuted.
(** ... and what they return depends on the schedule. *)
Theorem C40_criteria_schedule_refuted : exists local s1 s2 b1 c1 b2 c2,
  schedule 2 0 2 s1 /\ schedule 2 0 2 s2 /\
  omp_run nat 0 local GWRBasic_fitCoreSHatOmp 2 s1 = Returned b1 c1 /\
  omp_run nat 0 local GWRBasic_fitCoreSHatOmp 2 s2 = Returned b2 c2 /\ c1 0 <> c2 0.
Proof. exact C40_schedule_witness. Qed.
Print Assumptions C40_criteria_schedule_refuted.

(** C40 refuted for GWDR::fitOmp: failures are never reported. *)
Theorem C40_GWDR_fit_refuted :
  forall (B : Type) (zero : B) local threads lo hi sched,
  schedule threads lo hi sched -> (exists i, lo <= i < hi /\ local i = None) ->
  serial_run B zero local lo hi = Throw /\
  exists b s, omp_run B zero local GWDR_fitOmp threads sched = Returned b s.
Proof. exact C40_gwdr. Qed.
Print Assumptions C40_GWDR_fit_refuted.

(** C40 refuted for the locally compensated ridge loops, the criteria of generalised GWR and the
    summary statistics: the exception leaves the
    parallel region and the program terminates, exactly when a location fails. *)
Theorem C40_escape_refuted :
  forall (B : Type) (zero : B) local threads lo hi f sched,
  In f [GWRLocalCollinearity_criterionCVOmp; GWRLocalCollinearity_fitOmp;
        GWRLocalCollinearity_predictOmp; GWRGeneralized_criterionCVOmp;
        GWRGeneralized_criterionAICOmp; GWSS_GWAverageOmp; GWSS_GWCorrelationOmp] ->
  schedule threads lo hi sched ->
  (omp_run B zero local f threads sched = Terminated <-> exists i, lo <= i < hi /\ local i = None).
Proof. exact C40_terminates. Qed.
Print Assumptions C40_escape_refuted.
