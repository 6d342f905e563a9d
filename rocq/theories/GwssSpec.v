(** Vocabulary of C58-C62. *)
From Coq Require Import Reals Bool List Arith Permutation Sorted.
From Verif Require Import XReal Sums.
Import ListNotations.
Local Open Scope R_scope.

(** Weights: none negative, at least one positive. *)
Definition proper_weights (n : nat) (w : nat -> R) : Prop :=
  (forall j, (j < n)%nat -> 0 <= w j) /\ exists j, (j < n)%nat /\ 0 < w j.

(** Contract of arma::sort_index: a permutation of the indices that sorts the values. *)
Definition sorts_indices (sort_index : list R -> list nat) : Prop := forall l,
  Permutation (sort_index l) (seq 0 (length l)) /\
  StronglySorted (fun i j => nth i l 0 <= nth j l 0) (sort_index l).

(** Total weight of the observations whose value satisfies P. *)
Definition weight_where (n : nat) (x w : nat -> R) (P : R -> bool) : R :=
  bigsum n (fun j => if P (x j) then w j else 0).

Definition finite_in (lo hi : R) (v : xd) : Prop := exists r, xval v = Some r /\ lo <= r <= hi.
