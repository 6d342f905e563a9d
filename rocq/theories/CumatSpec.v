(** Vocabulary for the theorems about device matrices. *)
From Coq Require Import Reals List Arith.
From Verif Require Import Sums.
Import ListNotations.
Local Open Scope R_scope.

(** The list holds the rows x cols matrix [M] column by column from position [off] on. *)
Definition holds (d : list R) (off rows cols : nat) (M : nat -> nat -> R) : Prop :=
  forall i j, (i < rows)%nat -> (j < cols)%nat -> nth_error d (off + (i + j * rows)) = Some (M i j).

(** Product of matrices with inner dimension [k]; transposed matrix. *)
Definition product (k : nat) (A B : nat -> nat -> R) (i j : nat) : R := bigsum k (fun l => A i l * B l j).
Definition flipped (trans : bool) (A : nat -> nat -> R) (i j : nat) : R := if trans then A j i else A i j.

(** The two memories agree outside [lo, hi). *)
Definition same_outside (lo hi : nat) (d d' : list R) : Prop :=
  length d' = length d /\ forall q, (q < lo \/ hi <= q)%nat -> nth_error d' q = nth_error d q.

(** [count] such matrices, [step] apart. *)
Definition series (d : list R) (off step count rows cols : nat) (M : nat -> nat -> nat -> R) : Prop :=
  forall s, (s < count)%nat -> holds d (off + s * step) rows cols (M s).

(** [inv] returns inverses: what it returns for an n x n matrix M is a matrix I with I M = 1. *)
Definition inverts (inv : nat -> list R -> option (list R)) : Prop :=
  forall n v w M, inv n v = Some w -> length v = (n * n)%nat -> holds v 0 n n M ->
    length w = (n * n)%nat /\
    forall I, holds w 0 n n I -> forall i j, (i < n)%nat -> (j < n)%nat -> product n I M i j = if Nat.eqb i j then 1 else 0.
