(** Vocabulary of the property of distributed multiscale regression (C166). *)
From Coq Require Import Reals Bool List Arith.
From Verif Require Import MpiModel KernelModel GoldModel MsMpiModel.
Import ListNotations.
Local Open Scope R_scope.

(** No process can move. *)
Definition at_rest {A : Type} (w : nat) (sync : nat -> nat -> bool) (c : config A) : Prop :=
  forall d, ~ step w sync c d.

(** Process [p] has returned [a], has thrown [e], or is inside a collective operation. *)
Definition returned {A : Type} (c : config A) (p : nat) (a : A) : Prop := snd (c p) = Ret a.
Definition threw {A : Type} (c : config A) (p : nat) (e : exn) : Prop := snd (c p) = Err e.
Definition waits {A : Type} (c : config A) (p : nat) : Prop := exists cl k, snd (c p) = Call cl k.

(** Every process uses its own range of the locations: [i] belongs to process [p]. *)
Definition owns (n size p i : nat) : Prop := (p * size <= i < p * size + size)%nat /\ (i < n)%nat.

(** With two processes or more only the positive part of a coefficient survives MPI_MAX. *)
Definition survives (w : nat) (c : R) : R := if Nat.leb w 1 then c else Rmax c 0.
Definition surviving (w : nat) (loo : nat -> (nat -> R) -> weight -> nat -> option R) v yi b i : option R :=
  option_map (survives w) (loo v yi b i).
Definition surviving2 (w : nat) (loc : nat -> (nat -> R) -> weight -> nat -> option (R * R)) v yi b i : option (R * R) :=
  option_map (fun c => (survives w (fst c), snd c)) (loc v yi b i).

(** The telegram that tells every process the same, and never to stop inside a loop over the
    locations. *)
Definition between (st : place -> bool) : Prop :=
  (forall it v k i, st (InCriterion it v k i) = false) /\ (forall it v i, st (InFitting it v i) = false).

(** No coefficient is negative, or there is only one process. *)
Definition nothing_lost (w : nat) (loo : nat -> (nat -> R) -> weight -> nat -> option R)
    (loc : nat -> (nat -> R) -> weight -> nat -> option (R * R)) : Prop :=
  w = 1%nat \/
  (forall v yi b i c, loo v yi b i = Some c -> 0 <= c) /\ (forall v yi b i c h, loc v yi b i = Some (c, h) -> 0 <= c).
