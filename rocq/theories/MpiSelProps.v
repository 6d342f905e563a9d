(** Properties of the distributed bandwidth and variable selection of basic GWR (C165). *)
From Coq Require Import Reals Bool List Arith Lia.
From Verif Require Import Outcome XReal KernelModel Sums MpiModel MpiSelModel MpiSelSpec MpiSelMain MpiSelCases.
From Verif Require GoldModel MpiSelGoldModel MpiSelGold.
Import ListNotations.
Local Open Scope R_scope.

(** Whatever the processes do and in whichever order they move: the criteria broadcast are
    those of rounds to which all processes contributed, each sum taken once over all of
    them; every process has exactly these criteria, a worker possibly without the last one,
    and returns only what its search says after them. *)
Theorem C165_lockstep : forall A w tags eager (todo : nat -> list xd -> action A) value,
  (0 < tags)%nat -> (0 < w)%nat -> forall k c, moves A w tags eager todo value k (start A) c ->
  rounds A w tags todo value (bc c) /\
  match ms c with
  | MAt hs | MRecv hs _ _ | MBcast hs | MThrew hs => hs = bc c
  | MDone hs a => hs = bc c /\ todo 0%nat hs = Answer a
  end /\
  (forall s, (1 <= s < w)%nat ->
     whist (ws c s) = bc c \/ exists v, bc c = whist (ws c s) ++ [v]) /\
  (forall s hs a, (1 <= s < w)%nat -> ws c s = WDone hs a -> hs = bc c /\ todo s hs = Answer a).
Proof. exact lockstep_any. Qed.
Print Assumptions C165_lockstep.

(** When no process can move any more, some process had nothing to share, every process
    whose search was over has returned, every process whose fit failed has thrown, and every
    other one waits for ever. *)
Theorem C165_rest : forall A w tags eager (todo : nat -> list xd -> action A) value,
  (0 < tags)%nat -> (0 < w)%nat -> forall k c, moves A w tags eager todo value k (start A) c ->
  at_rest A w tags todo value eager c ->
  rounds A w tags todo value (bc c) /\
  (exists p, (p < w)%nat /\ forall f, todo p (bc c) <> Share f) /\
  (forall p, (p < w)%nat -> settled A todo c p).
Proof. exact rest_any. Qed.
Print Assumptions C165_rest.

Section Gwr.
Variables A Q : Type.
Variable plan : list (bool * xd) -> ask A Q.
Variables n w tags : nat.
Variable len : nat -> nat.
Variable fits : Q -> nat -> bool.
Variable contrib : Q -> nat -> nat -> nat -> R.
Variable value : list (list R) -> xd.
Variable size : nat.
Notation search := (serial_search A Q plan n tags len fits contrib).
Notation todo := (gwr_todo A Q plan n len fits contrib (fun _ => None) (fun _ => 0%nat) size).

(** When the search of one process over all observations meets no DBL_MAX, the search with
    any number of processes ends after finitely many moves, with buffered or waiting
    messages and in whatever order they arrive; then every process has returned the answer of
    the one process, after exactly the same criteria.  Nothing else is ever returned, and
    nothing is thrown. *)
Theorem C165_agrees_partial : (0 < tags)%nat -> range_size n w = Ok size ->
  forall eager checked fuel hs a k c,
  search checked value fuel [] = Some (hs, a) -> ~ In (XF DBL_MAX) hs ->
  moves A w tags eager todo value k (start A) c ->
  (k <= (length hs + 1) * ((w - 1) * (2 * tags + 2) + 3) + w)%nat /\
  (at_rest A w tags todo value eager c -> all_return A w hs a c) /\
  (forall p, (p < w)%nat -> ~ threw A c p) /\
  (forall hs' a', ms c = MDone hs' a' -> hs' = hs /\ a' = a) /\
  (forall s hs' a', (1 <= s < w)%nat -> ws c s = WDone hs' a' -> hs' = hs /\ a' = a).
Proof. exact (agree_main A Q plan n w tags len fits contrib value size). Qed.

(** Such an end is reached. *)
Theorem C165_reached : (0 < tags)%nat -> range_size n w = Ok size ->
  forall eager checked fuel hs a,
  search checked value fuel [] = Some (hs, a) -> ~ In (XF DBL_MAX) hs ->
  exists k c, moves A w tags eager todo value k (start A) c /\ at_rest A w tags todo value eager c.
Proof. exact (exists_main A Q plan n w tags len fits contrib value size). Qed.

(** "As with one process" is false when a local fit fails: one process takes DBL_MAX and
    goes on; with several the processes in whose range a fit fails throw, none ever returns,
    and all the others end up waiting. *)
Theorem C165_failure_refuted : (0 < tags)%nat -> range_size n w = Ok size ->
  forall eager checked fuel hs a m q i k c,
  search checked value fuel [] = Some (hs, a) -> (m < length hs)%nat ->
  ~ In (XF DBL_MAX) (firstn m hs) ->
  plan (map (fun v => (true, v)) (firstn m hs)) = Ask q -> (i < n)%nat -> fits q i = false ->
  moves A w tags eager todo value k (start A) c ->
  (k <= (m + 1) * ((w - 1) * (2 * tags + 2) + 3) + w)%nat /\
  (forall p, (p < w)%nat -> ~ returned A c p) /\
  (at_rest A w tags todo value eager c -> forall p, (p < w)%nat ->
     ((exists j, (p * size <= j < p * size + size)%nat /\ (j < n)%nat /\ fits q j = false) <->
      threw A c p)).
Proof. exact (fail_main A Q plan n w tags len fits contrib value size). Qed.

(** "Cancelling one process ends the search" is false: when process [p0] is told to stop
    during criterion [k0] and leaves its search after it while the search of the others asks
    for another criterion, then no other process ever returns; in the end [p0] has returned
    and the others wait. *)
Theorem C165_cancel_refuted : (0 < tags)%nat -> range_size n w = Ok size ->
  forall eager p0 k0 cut F q k c, (p0 < w)%nat -> length F = S k0 ->
  let quit := fun p => if Nat.eqb p p0 then Some k0 else None in
  let todo := gwr_todo A Q plan n len fits contrib quit cut size in
  rounds A w tags todo value F ->
  (forall h, map fst h = repeat true k0 ++ [false] -> exists a, plan h = Return a) ->
  plan (map (fun v => (true, v)) F) = Ask q ->
  moves A w tags eager todo value k (start A) c ->
  (k <= (k0 + 2) * ((w - 1) * (2 * tags + 2) + 3) + w)%nat /\
  (forall p, (p < w)%nat -> p <> p0 -> ~ returned A c p) /\
  (at_rest A w tags todo value eager c -> returned A c p0 /\
     forall p, (p < w)%nat -> p <> p0 -> (forall i, (i < n)%nat -> fits q i = true) -> ~ threw A c p).
Proof. exact (cancel_main A Q plan n w tags len fits contrib value size). Qed.
End Gwr.
Print Assumptions C165_agrees_partial.
Print Assumptions C165_reached.
Print Assumptions C165_failure_refuted.
Print Assumptions C165_cancel_refuted.

(** "As with one process" is false when a bandwidth criterion is not finite: one process
    takes DBL_MAX for it and prefers candidate 1, several processes take the NaN and return
    candidate 2. *)
Theorem C165_finite_refuted :
  serial_search nat nat two_plan 4 2 two_len (two_fits false) two_contrib true two_nan 5 [] =
    Some ([XF 12; XF DBL_MAX], 1%nat) /\
  serial_search nat nat two_plan 4 2 two_len (two_fits false) two_contrib false two_nan 5 [] =
    Some ([XF 12; XN], 2%nat) /\
  forall eager,
  let todo := gwr_todo nat nat two_plan 4 two_len (two_fits false) two_contrib (fun _ => None) (fun _ => 0%nat) 2 in
  (exists k c, moves nat 3 2 eager todo two_nan k (start nat) c /\ at_rest nat 3 2 todo two_nan eager c) /\
  forall k c, moves nat 3 2 eager todo two_nan k (start nat) c -> at_rest nat 3 2 todo two_nan eager c ->
  all_return nat 3 [XF 12; XN] 2%nat c.
Proof. exact finite_main. Qed.
Print Assumptions C165_finite_refuted.

(** For the golden-section search (GoldModel): if none of the criteria it evaluates with
    one process is DBL_MAX, every process of the distributed search evaluates the same
    criteria in the same order and returns the same bandwidth. *)
Theorem C165_golden_partial : forall n w tags len fits contrib value checked w0 lo up m size,
  (0 < tags)%nat -> range_size n w = Ok size ->
  let crit := serial_criterion GoldModel.weight n tags len fits contrib checked value in
  let r := GoldModel.optimize (fun _ b => GoldModel.Answer true (crit b)) w0 lo up m in
  let todo := gwr_todo GoldModel.result GoldModel.weight (MpiSelGoldModel.golden_plan w0 lo up m) n len fits contrib
                (fun _ => None) (fun _ => 0%nat) size in
  (forall b v, In (b, v) (GoldModel.rlog r) -> v <> XF DBL_MAX) ->
  forall eager,
  (exists k c, moves _ w tags eager todo value k (start _) c /\ at_rest _ w tags todo value eager c) /\
  forall k c, moves _ w tags eager todo value k (start _) c ->
  (k <= (length (GoldModel.rlog r) + 1) * ((w - 1) * (2 * tags + 2) + 3) + w)%nat /\
  (at_rest _ w tags todo value eager c ->
   all_return _ w (rev (map snd (GoldModel.rlog r))) (GoldModel.rresult r) c).
Proof. exact MpiSelGold.gold_main. Qed.
Print Assumptions C165_golden_partial.
Example C165_golden_case : forall w0 lo up m b v,
  In (b, v) (GoldModel.rlog (GoldModel.optimize (fun _ q => GoldModel.Answer true
    (serial_criterion GoldModel.weight 4 1 (fun _ => 1%nat) (fun _ _ => true) MpiSelGold.step_contrib true MpiSelGold.first_value q)) w0 lo up m)) ->
  v <> XF DBL_MAX.
Proof. exact MpiSelGold.step_case. Qed.

(** Four observations and three processes, one of them without observations. *)
Example C165_case : range_size 4 3 = Ok 2%nat /\
  serial_search nat nat two_plan 4 2 two_len (two_fits false) two_contrib true two_value 5 [] =
    Some ([XF 12; XF 16], 1%nat) /\ ~ In (XF DBL_MAX) [XF 12; XF 16].
Proof. exact (conj eq_refl (conj two_serial two_not_max)). Qed.

(** The second candidate fails at location 3, in the range of process 1. *)
Example C165_failure_case :
  serial_search nat nat two_plan 4 2 two_len (two_fits true) two_contrib true two_value 5 [] =
    Some ([XF 12; XF DBL_MAX], 1%nat) /\
  two_plan (map (fun v => (true, v)) (firstn 1 [XF 12; XF DBL_MAX])) = Ask 2%nat /\ two_fits true 2 3 = false.
Proof. exact (conj two_bad_serial (conj eq_refl eq_refl)). Qed.

(** Process 1 is told to stop after one location of the first criterion: its value is 9
    instead of 12, and the others go on. *)
Example C165_cancel_case :
  rounds nat 3 2 (gwr_todo nat nat two_plan 4 two_len (two_fits false) two_contrib two_quit (fun _ => 1%nat) 2) two_value [XF 9] /\
  (forall h, map fst h = repeat true 0 ++ [false] -> exists a, two_plan h = Return a) /\
  two_plan [(true, XF 9)] = Ask 2%nat.
Proof. exact two_cancelled. Qed.
