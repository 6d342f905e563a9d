(** Model of the distributed bandwidth and variable selection of basic GWR: every
    process runs the same search, and each evaluation of a criterion is a collective
    operation of all processes.
    Source: src/gwmodelpp/GWRBasic.cpp 830-870 (indepVarsSelectionCriterionMpi), 872-899
    (bandwidthSizeCriterionCVMpi), 901-935 (bandwidthSizeCriterionAICMpi), 96-98 (mWorkRange),
    291-318 (fitCoreCVSerial), 320-351 (fitCoreSHatSerial), 353-425 (the serial criteria);
    include/gwmodelpp/Algorithm.h 66 (GWM_LOG_STOP_BREAK).

    The processes run concurrently, so the model is a transition relation on the state of
    all of them: any process that can move may move next.

    Simplifications of the whole file: messages are delivered once and unchanged (MPI
    guarantee), in any order; no other messages use the communicator meanwhile; doubles
    that are added are real numbers, the criterion computed from the sums is an extended
    double; the receive buffer is large enough (it has as many elements as the coefficient
    matrix, so it is too short for the two numbers of [shat] when there is one coefficient
    in all). *)
From Coq Require Import Reals Bool List Arith.
From Verif Require Import Outcome XReal Sums KernelModel MpiModel.
Import ListNotations.
Local Open Scope R_scope.

(** What a process does next, given the criteria it has obtained so far: its search is
    over with an answer, its own part of the next criterion throws, or it contributes one
    vector for each tag ([shat] and [betas], or [betas] alone). *)
Inductive action (A : Type) : Type :=
| Answer (a : A)
| Raise
| Share (f : nat -> list R).
Arguments Answer {A} a.
Arguments Raise {A}.
Arguments Share {A} f.

(** The master: computing; in the receive loop, with the entries of [received] that are
    set and the sums so far, by tag; inside MPI_Bcast; returned; left by an exception.
    The first argument is the list of criteria obtained so far. *)
Inductive mstate (A : Type) : Type :=
| MAt (hs : list xd)
| MRecv (hs : list xd) (got : list (nat * nat)) (acc : nat -> list R)
| MBcast (hs : list xd)
| MDone (hs : list xd) (a : A)
| MThrew (hs : list xd).
Arguments MAt {A} hs.
Arguments MRecv {A} hs got acc.
Arguments MBcast {A} hs.
Arguments MDone {A} hs a.
Arguments MThrew {A} hs.

(** A worker: computing; inside MPI_Send of a tag; waiting in MPI_Bcast; returned; left by
    an exception. *)
Inductive wstate (A : Type) : Type :=
| WAt (hs : list xd)
| WSend (hs : list xd) (t : nat)
| WWait (hs : list xd)
| WDone (hs : list xd) (a : A)
| WThrew (hs : list xd).
Arguments WAt {A} hs.
Arguments WSend {A} hs t.
Arguments WWait {A} hs.
Arguments WDone {A} hs a.
Arguments WThrew {A} hs.

(** The criteria a worker has obtained. *)
Definition whist {A : Type} (s : wstate A) : list xd :=
  match s with WAt hs | WSend hs _ | WWait hs | WDone hs _ | WThrew hs => hs end.

(** The state of all processes, the messages on their way (source, tag, contents), and the
    values broadcast so far. *)
Record config (A : Type) : Type := mkC {
  ms : mstate A; ws : nat -> wstate A; net : list (nat * nat * list R); bc : list xd }.
Arguments mkC {A}.
Arguments ms {A}.
Arguments ws {A}.
Arguments net {A}.
Arguments bc {A}.

Definition upd {B : Type} (f : nat -> B) (i : nat) (x : B) : nat -> B :=
  fun j => if Nat.eqb j i then x else f j.

Section System.
Variable A : Type.
(** Processes 1 .. w - 1 are the workers; [tags] messages per worker and criterion. *)
Variables w tags : nat.
(** MPI_Send may return as soon as the message is buffered, and MPI_Bcast as soon as the
    root has handed its value over ([eager]); or both may wait for the other side. *)
Variable eager : bool.
Variable todo : nat -> list xd -> action A.
(** The criterion computed by the master from the sums. *)
Variable value : list (list R) -> xd.

Definition has_msg (s t : nat) (l : list (nat * nat * list R)) : bool :=
  existsb (fun m => Nat.eqb (fst (fst m)) s && Nat.eqb (snd (fst m)) t) l.

(** The loop condition [!all(all(received))] is [complete] of MpiModel (the rows of the
    workers; row 0 is preset). *)
Inductive step : config A -> config A -> Prop :=
(** The search of the master ends (its criterion function is not called again). *)
| m_answer : forall hs a ws0 n b, todo 0 hs = Answer a ->
    step (mkC (MAt hs) ws0 n b) (mkC (MDone hs a) ws0 n b)
(** The fit of the master's own range throws (839, 877, 907: no try). *)
| m_raise : forall hs ws0 n b, todo 0 hs = Raise ->
    step (mkC (MAt hs) ws0 n b) (mkC (MThrew hs) ws0 n b)
(** The master has its own part and enters the receive loop (841-844, 879-882, 909-912). *)
| m_share : forall hs f ws0 n b, todo 0 hs = Share f ->
    step (mkC (MAt hs) ws0 n b) (mkC (MRecv hs [] f) ws0 n b)
(** One turn of the loop: a message is received, the table is marked and the contents are
    added to the sum of that tag (847-860, 885-888, 915-928).  CV receives with its only tag,
    the others with any. *)
| m_recv : forall hs got acc ws0 l1 s t v l2 b, complete w tags got = false ->
    step (mkC (MRecv hs got acc) ws0 (l1 ++ (s, t, v) :: l2) b)
         (mkC (MRecv hs ((s, t) :: got) (upd acc t (vadd (acc t) v))) ws0 (l1 ++ l2) b)
(** The loop ends, the criterion is computed and MPI_Bcast is entered (862, 868, 890-891,
    897, 930, 936). *)
| m_post : forall hs got acc ws0 n b, complete w tags got = true ->
    let v := value (map acc (seq 0 tags)) in
    step (mkC (MRecv hs got acc) ws0 n b) (mkC (MBcast (hs ++ [v])) ws0 n (b ++ [v]))
(** MPI_Bcast returns on the master. *)
| m_go : forall hs ws0 n b,
    (eager = true \/ forall s, (1 <= s < w)%nat -> (length hs <= length (whist (ws0 s)))%nat) ->
    step (mkC (MBcast hs) ws0 n b) (mkC (MAt hs) ws0 n b)
(** The search of a worker ends. *)
| w_answer : forall s hs a m ws0 n b, (1 <= s < w)%nat -> ws0 s = WAt hs -> todo s hs = Answer a ->
    step (mkC m ws0 n b) (mkC m (upd ws0 s (WDone hs a)) n b)
(** The fit of its range throws. *)
| w_raise : forall s hs m ws0 n b, (1 <= s < w)%nat -> ws0 s = WAt hs -> todo s hs = Raise ->
    step (mkC m ws0 n b) (mkC m (upd ws0 s (WThrew hs)) n b)
(** The worker has its part and calls the first MPI_Send (865, 894, 933). *)
| w_share : forall s hs f m ws0 n b, (1 <= s < w)%nat -> ws0 s = WAt hs -> todo s hs = Share f ->
    step (mkC m ws0 n b) (mkC m (upd ws0 s (WSend hs 0)) (n ++ [(s, 0%nat, f 0%nat)]) b)
(** MPI_Send returns and the next one is called (866, 934) ... *)
| w_next : forall s hs t f m ws0 n b, (1 <= s < w)%nat -> ws0 s = WSend hs t ->
    (eager = true \/ has_msg s t n = false) -> (S t < tags)%nat -> todo s hs = Share f ->
    step (mkC m ws0 n b) (mkC m (upd ws0 s (WSend hs (S t))) (n ++ [(s, S t, f (S t))]) b)
(** ... or MPI_Bcast, after the last one. *)
| w_last : forall s hs t m ws0 n b, (1 <= s < w)%nat -> ws0 s = WSend hs t ->
    (eager = true \/ has_msg s t n = false) -> (tags <= S t)%nat ->
    step (mkC m ws0 n b) (mkC m (upd ws0 s (WWait hs)) n b)
(** MPI_Bcast returns on a worker: collective calls match in order, so the k-th one
    delivers the k-th value broadcast. *)
| w_bcast : forall s hs v m ws0 n b, (1 <= s < w)%nat -> ws0 s = WWait hs ->
    nth_error b (length hs) = Some v ->
    step (mkC m ws0 n b) (mkC m (upd ws0 s (WAt (hs ++ [v]))) n b).

(** All processes enter the search with no criterion evaluated. *)
Definition start : config A := mkC (MAt []) (fun _ => WAt []) [] [].

(** [k] moves from [c] to [c']. *)
Inductive moves : nat -> config A -> config A -> Prop :=
| mv_none : forall c, moves 0 c c
| mv_one : forall k c d e, moves k c d -> step d e -> moves (S k) c e.
End System.

(** ** The action of a process of basic GWR *)
Section Gwr.
Variables A Q : Type.
(** The search: given the status and the criterion of every evaluation so far (the status
    is that of IBandwidthSelectable::getCriterion: [true] for Success), it asks for one
    more criterion, of a bandwidth or of a set of variables, or it is over. *)
Inductive ask := Ask (q : Q) | Return (a : A).
Variable plan : list (bool * xd) -> ask.
(** Number of observations, processes, messages and the lengths of the messages. *)
Variables n w tags : nat.
Variable len : nat -> nat.
(** The local fit of location [i] succeeds; its contribution to entry [e] of message [t]:
    for [betas] the coefficients of location i at its own entries and 0 elsewhere, for
    [shat] the two numbers it adds. *)
Variable fits : Q -> nat -> bool.
Variable contrib : Q -> nat -> nat -> nat -> R.
(** The last evaluation at which process [p] is not yet told to stop is the one before
    [quit p] (None: it never is); from then on its loop breaks before the first location,
    after [cut p] of them at evaluation [quit p] itself. *)
Variable quit : nat -> option nat.
Variable cut : nat -> nat.

(** mStatus of process [p] after evaluation [k] is still Success. *)
Definition success (p k : nat) : bool :=
  match quit p with Some k0 => Nat.ltb k k0 | None => true end.

(** The locations process [p] visits in evaluation [k]: its work range (96-98), or the
    part of it before the break (GWM_LOG_STOP_BREAK, 299, 329). *)
Definition locations (size p k : nat) : list nat :=
  let r := visited (work_range n size p) in
  match quit p with
  | None => r
  | Some k0 => if Nat.ltb k k0 then r else if Nat.eqb k k0 then firstn (cut p) r else []
  end.

(** The part of a process: zeros (295, 323-324), plus the contributions of the locations
    visited (307, 340-343). *)
Definition part_of (q : Q) (ls : list nat) (t : nat) : list R :=
  map (fun e => sumloop (fun i => contrib q t i e) ls) (seq 0 (len t)).

Definition gwr_todo (size p : nat) (hs : list xd) : action A :=
  match plan (combine (map (success p) (seq 0 (length hs))) hs) with
  | Return a => Answer a
  | Ask q =>
      let ls := locations size p (length hs) in
      if forallb (fits q) ls then Share (part_of q ls) else Raise
  end.

(** The criteria of one process (354-425): DBL_MAX when a local fit throws, and, for the
    bandwidth criteria ([checked]), when the value is not finite. *)
Definition serial_criterion (checked : bool) (value : list (list R) -> xd) (q : Q) : xd :=
  if forallb (fits q) (seq 0 n) then
    let v := value (map (part_of q (seq 0 n)) (seq 0 tags)) in
    if checked && negb (xisfinite v) then XF DBL_MAX else v
  else XF DBL_MAX.

(** The search of one process that is not told to stop; [fuel] evaluations at most. *)
Fixpoint serial_search (checked : bool) (value : list (list R) -> xd) (fuel : nat)
  (hs : list (bool * xd)) : option (list xd * A) :=
  match plan hs with
  | Return a => Some (map snd hs, a)
  | Ask q =>
      match fuel with
      | O => None
      | S f => serial_search checked value f (hs ++ [(true, serial_criterion checked value q)])
      end
  end.
End Gwr.
Arguments Ask {A Q} q.
Arguments Return {A Q} a.
