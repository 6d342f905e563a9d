(** Model of the MPI decomposition.
    Source: src/gwmodelpp/GWRBasic.cpp, src/gwmodelpp/GWRMultiscale.cpp,
    src/gwmodelpp/utils/armampi.cpp.

    Simplifications of the whole file: transport is reliable and every message sent
    is delivered once (MPI guarantee); doubles are real numbers; the per-location
    regression is a function of the location index (its inputs are broadcast before,
    GWRBasic.cpp:66-95), so every process computes the same value for a location. *)
From Coq Require Import Reals Bool List Arith ZArith.
From Verif Require Import Outcome Sums.
Import ListNotations.
Local Open Scope R_scope.

(** mWorkRangeSize (GWRBasic.cpp:75, GWRMultiscale.cpp:157); division by
    [mWorkerNum = 0] is undefined. *)
Definition range_size (n w : nat) : outcome nat :=
  match w with
  | O => UB
  | _ => Ok (n / w + (if Nat.eqb (n mod w) 0 then 0 else 1))%nat
  end.

(** mWorkRange of worker [id] (GWRBasic.cpp:96-98, GWRMultiscale.cpp:176-177) and the
    master's reconstruction of it from the sender (GWRBasic.cpp:960).
    Simplification: the products do not wrap at 2^64. *)
Definition work_range (n size id : nat) : nat * nat :=
  (id * size, Nat.min (id * size + size) n)%nat.

(** The indices visited by [for (i = first; i < second; i++)]. *)
Definition visited (r : nat * nat) : list nat := seq (fst r) (snd r - fst r).

(** [rangeSize = second - first] in uword arithmetic (GWRBasic.cpp:254 and the
    other cores). *)
Definition uword_sub (r : nat * nat) : Z :=
  ((Z.of_nat (snd r) - Z.of_nat (fst r)) mod 2 ^ 64)%Z.

(** Armadillo [X.cols(first, second - 1)] on [n] columns: throws unless
    first <= second - 1 < n (second = 0 wraps and throws). *)
Definition cols_ok (r : nat * nat) (n : nat) : bool :=
  (fst r <? snd r)%nat && (snd r <=? n)%nat.

(** Writing [vals] into the columns starting at [pos]. *)
Definition splice {A : Type} (l : list A) (pos : nat) (vals : list A) : list A :=
  firstn pos l ++ vals ++ skipn (pos + length vals) l.
Definition subcols {A : Type} (l : list A) (r : nat * nat) : list A :=
  firstn (snd r - fst r) (skipn (fst r) l).
Definition setnth {A : Type} (l : list A) (i : nat) (x : A) : list A :=
  splice l i [x].

(** ** Receive loops of the master
    [while (!all(all(received)))] MPI_Recv from any source, any tag
    (GWRBasic.cpp:844, 882, 909, 954).  [arrivals] is the order in which MPI hands
    the messages over; if it runs out the master blocks. *)
Inductive gathered (St : Type) : Type :=
| Done (st : St)
| Blocked
| Failed.
Arguments Done {St} st.
Arguments Blocked {St}.
Arguments Failed {St}.

Section Gather.
Variables St Msg : Type.
Variable recv : St -> Msg -> outcome St.
Variable key : Msg -> nat * nat.      (* source, tag - first tag *)
Variables w tags : nat.

(** Row 0 of [received] is preset, the rest starts at zero. *)
Definition complete (received : list (nat * nat)) : bool :=
  forallb (fun s => forallb (fun t =>
    existsb (fun k => Nat.eqb (fst k) s && Nat.eqb (snd k) t) received)
    (seq 0 tags)) (seq 1 (w - 1)).

(** [received(source, tag) = 1] throws when out of bounds. *)
Definition in_table (k : nat * nat) : bool := (fst k <? w)%nat && (snd k <? tags)%nat.

Fixpoint gather (received : list (nat * nat)) (st : St) (arrivals : list Msg) : gathered St :=
  if complete received then Done st
  else match arrivals with
       | [] => Blocked
       | m :: t =>
           if in_table (key m) then
             match recv st m with
             | Ok st' => gather (key m :: received) st' t
             | _ => Failed
             end
           else Failed
       end.
End Gather.

(** ** GWRBasic::fitMpi (GWRBasic.cpp:937-1021) *)
Section FitMpi.
Variable C : Type.                 (* one column of mBetas / mBetasSE *)
Variable zero_col : C.
Variables beta se : nat -> C.      (* local regression at location i *)
Variables sh0 sh1 : nat -> R.      (* its contributions to mSHat *)
Variable qd : nat -> nat -> R.     (* its contribution to mQDiag(j) *)
Variables n size w : nat.

(** Result of fitCoreSerial (GWRBasic.cpp:246-289) on a range.
    [stored]: isStoreS() or isStoreC(), then mS / mC get [rangeSize] rows / slices;
    a wrapped size cannot be allocated and Armadillo throws. *)
Record part := mkPart { pbetas : list C; pse : list C; pshat : R * R; pqdiag : list R }.
Definition fill_range (r : nat * nat) (f : nat -> C) : list C :=
  map (fun i => if (fst r <=? i)%nat && (i <? snd r)%nat then f i else zero_col) (seq 0 n).
Definition fit_core (stored : bool) (r : nat * nat) : outcome part :=
  if stored && negb (Z.eqb (uword_sub r) (Z.of_nat (snd r - fst r))) then Throw
  else Ok (mkPart (fill_range r beta) (fill_range r se)
             (sumloop sh0 (visited r), sumloop sh1 (visited r))
             (map (fun j => sumloop (fun i => qd i j) (visited r)) (seq 0 n))).

(** The four messages of a worker (cpp:993-1003), tags in the order of
    GWRBasicFitMpiTags. *)
Inductive fmsg :=
| FBetas (src : nat) (cols : list C)
| FBetasSE (src : nat) (cols : list C)
| FSHat (src : nat) (v : R * R)
| FQDiag (src : nat) (v : list R).
Definition fkey (m : fmsg) : nat * nat :=
  match m with
  | FBetas s _ => (s, 0) | FBetasSE s _ => (s, 1) | FSHat s _ => (s, 2) | FQDiag s _ => (s, 3)
  end%nat.

Definition worker_sends (stored : bool) (id : nat) : outcome (list fmsg) :=
  let r := work_range n size id in
  let* p := fit_core stored r in
  if cols_ok r n then
    Ok [FBetas id (subcols (pbetas p) r); FBetasSE id (subcols (pse p) r);
        FSHat id (pshat p); FQDiag id (pqdiag p)]
  else Throw.

(** The master's variables while receiving (cpp:946-951). *)
Record master := mkMaster {
  mbetas : list C; mse : list C; shat_all : list (R * R); qdiag_all : list (list R) }.

Definition master_start (p : part) : master :=
  mkMaster (pbetas p) (pse p)
    (pshat p :: repeat (0, 0) (w - 1)) (pqdiag p :: repeat (repeat 0 n) (w - 1)).

(** One received message (cpp:959-982).  Simplification: a payload whose length
    differs from the range is a failure (the C++ would read stale buffer contents);
    the senders above never produce one. *)
Definition frecv (st : master) (m : fmsg) : outcome master :=
  match m with
  | FBetas s l =>
      let r := work_range n size s in
      if cols_ok r n && Nat.eqb (length l) (snd r - fst r) then
        Ok (mkMaster (splice (mbetas st) (fst r) l) (mse st) (shat_all st) (qdiag_all st))
      else Throw
  | FBetasSE s l =>
      let r := work_range n size s in
      if cols_ok r n && Nat.eqb (length l) (snd r - fst r) then
        Ok (mkMaster (mbetas st) (splice (mse st) (fst r) l) (shat_all st) (qdiag_all st))
      else Throw
  | FSHat s v => Ok (mkMaster (mbetas st) (mse st) (setnth (shat_all st) s v) (qdiag_all st))
  | FQDiag s v => Ok (mkMaster (mbetas st) (mse st) (shat_all st) (setnth (qdiag_all st) s v))
  end.

(** mSHat = sum(shat_all, 1), mQDiag = sum(qdiag_all, 1) (cpp:984-985). *)
Definition finish (st : master) : part :=
  mkPart (mbetas st) (mse st)
    (lsum (map fst (shat_all st)), lsum (map snd (shat_all st)))
    (map (fun j => lsum (map (fun q => nth j q 0) (qdiag_all st))) (seq 0 n)).

(** The master's side of fitMpi for a given arrival order. *)
Definition fit_mpi (stored : bool) (arrivals : list fmsg) : gathered part :=
  match fit_core stored (work_range n size 0) with
  | Ok p => match gather master fmsg frecv fkey w 4 [] (master_start p) arrivals with
            | Done st => Done (finish st)
            | Blocked => Blocked
            | Failed => Failed
            end
  | _ => Failed
  end.
End FitMpi.
Arguments mkPart {C}.
Arguments pbetas {C}. Arguments pse {C}. Arguments pshat {C}. Arguments pqdiag {C}.
Arguments FBetas {C}. Arguments FBetasSE {C}. Arguments FSHat {C}. Arguments FQDiag {C}.
Arguments mkMaster {C}.
Arguments mbetas {C}. Arguments mse {C}. Arguments shat_all {C}. Arguments qdiag_all {C}.

(** ** Criterion loops: [betas += message] (GWRBasic.cpp:855-859, 886, 921)
    One entry of the matrix: worker [id] contributes its local coefficient for the
    rows of its range and 0 elsewhere (fitCoreCVSerial 291-318, fitCoreSHatSerial
    320-351 fill with zeros). *)
Section SumMpi.
Variable b : nat -> R.
Variables n size w : nat.
Definition padded (id : nat) : list R :=
  map (fun i => if (fst (work_range n size id) <=? i)%nat && (i <? snd (work_range n size id))%nat
                then b i else 0) (seq 0 n).
Definition vadd (u v : list R) : list R := map (fun p => fst p + snd p) (combine u v).
Definition srecv (st : list R) (m : nat * list R) : outcome (list R) := Ok (vadd st (snd m)).
Definition sum_mpi (arrivals : list (nat * list R)) : gathered (list R) :=
  gather (list R) (nat * list R) srecv (fun m => (fst m, 0%nat)) w 1 [] (padded 0) arrivals.

(** MPI_Allreduce / MPI_Reduce with MPI_MAX over all processes
    (GWRMultiscale.cpp:953, 988, 1029). *)
Definition max_mpi : list R :=
  map (fun i => fold_left (fun acc id => Rmax acc (nth i (padded id) 0)) (seq 1 (w - 1))
                  (nth i (padded 0) 0)) (seq 0 n).
End SumMpi.

(** ** mat_mul_mpi (armampi.cpp:8-25)
    Matrices are column-major lists of doubles: entry (i, j) of a matrix with [m]
    rows is element [j * m + i]. *)
Definition at_ (m : nat) (mem : list R) (i j : nat) : R := nth (j * m + i) mem 0.

(** [a_counts] and [a_disp] for root [pi] (cpp:18-19); they are C ints, signed overflow
    is undefined.  [rows] is the gathered vector b_rows. *)
Definition INT_MAX : Z := (2 ^ 31 - 1)%Z.
Definition counts (rows : list nat) (pi : nat) : list nat :=
  map (fun k => nth pi rows 0%nat * k)%nat rows.
Definition disp (cs : list nat) (q : nat) : nat := fold_left Nat.add (firstn q cs) 0%nat.
Definition counts_fit (rows : list nat) (pi : nat) : bool :=
  (Z.of_nat (fold_left Nat.add (counts rows pi) 0%nat) <=? INT_MAX)%Z.

(** MPI_Scatterv: process [q] receives [a_counts(q)] doubles of the root's buffer from
    [a_disp(q)] on (cpp:21); reading outside the root's matrix is undefined. *)
Definition scatter (rows : list nat) (a : list R) (pi q : nat) : outcome (list R) :=
  let cs := counts rows pi in
  if counts_fit rows pi then
    if (disp cs q + nth q cs 0%nat <=? length a)%nat
    then Ok (firstn (nth q cs 0%nat) (skipn (disp cs q) a)) else UB
  else UB.

(** [a_buf * b] with a_buf of size b_rows(pi) x b_rows(q) and [b] of size b_rows(q) x n
    (cpp:22). *)
Definition mm (m k n : nat) (a b : list R) : list R :=
  flat_map (fun j => map (fun i => bigsum k (fun l => at_ m a i l * at_ k b l j)) (seq 0 m))
    (seq 0 n).

(** One process's contribution to the product of root [pi]. *)
Definition contribution (rows : list nat) (n : nat) (As Bs : list (list R)) (pi q : nat)
  : outcome (list R) :=
  let* buf := scatter rows (nth pi As []) pi q in
  Ok (mm (nth pi rows 0%nat) (nth q rows 0%nat) n buf (nth q Bs [])).

(** MPI_Reduce with MPI_SUM over all processes, result on the root (cpp:23).
    Simplification: the summation order of MPI_Reduce does not matter over R. *)
Fixpoint reduce_sum (len : nat) (cs : list (list R)) : list R :=
  match cs with [] => repeat 0 len | c :: t => vadd c (reduce_sum len t) end.
Fixpoint collect {A : Type} (l : list (outcome A)) : outcome (list A) :=
  match l with
  | [] => Ok []
  | x :: t => let* a := x in let* r := collect t in Ok (a :: r)
  end.

(** The matrix [c] left on process [pi]: it is only written in iteration [pi]. *)
Definition mat_mul_mpi (rows : list nat) (n : nat) (As Bs : list (list R)) (pi : nat)
  : outcome (list R) :=
  let* parts := collect (map (contribution rows n As Bs pi) (seq 0 (length rows))) in
  Ok (reduce_sum (nth pi rows 0 * n)%nat parts).
