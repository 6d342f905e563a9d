(** Vocabulary of the MPI properties C35-C38. *)
From Coq Require Import Reals List Arith ZArith.
From Verif Require Import Outcome Sums MpiModel.
Import ListNotations.
Local Open Scope R_scope.

(** What one process computes when it visits all observations: every column, and the
    sums of the contributions of all observations. *)
Definition serial_result {C : Type} (n : nat) (beta se : nat -> C) (sh0 sh1 : nat -> R)
  (qd : nat -> nat -> R) : part C :=
  mkPart (map beta (seq 0 n)) (map se (seq 0 n)) (bigsum n sh0, bigsum n sh1)
    (map (fun j => bigsum n (fun i => qd i j)) (seq 0 n)).

(** Every worker has at least one observation. *)
Definition all_busy (n size w : nat) : Prop :=
  forall s, (s < w)%nat -> (s * size < n)%nat.

(** Row [k] of the matrix whose block rows are [Bs], [rows] giving the block heights. *)
Fixpoint stacked (rows : list nat) (Bs : list (list R)) (k j : nat) : R :=
  match rows, Bs with
  | r :: rt, B :: Bt => if (k <? r)%nat then at_ r B k j else stacked rt Bt (k - r)%nat j
  | _, _ => 0
  end.

(** Total number of rows. *)
Definition total (rows : list nat) : nat := fold_right Nat.add 0%nat rows.

(** Block-row distribution: process p holds rows(p) rows of A (total columns) and of
    B (n columns). *)
Definition distributed (rows : list nat) (n : nat) (As Bs : list (list R)) : Prop :=
  length As = length rows /\ length Bs = length rows /\
  (forall p, (p < length rows)%nat ->
     length (nth p As []) = (nth p rows 0 * total rows)%nat /\
     length (nth p Bs []) = (nth p rows 0 * n)%nat).
