(** Vocabulary of the theorems on scalable GWR. *)
From mathcomp Require Import all_ssreflect all_algebra.
Set Implicit Arguments. Unset Strict Implicit. Unset Printing Implicit Defensive.
Import GRing.Theory.
Local Open Scope ring_scope.

Section S.
Variables (F : realFieldType) (n P : nat).
(** Share of polynomial term p: proportional to b^(p+1). *)
Definition share (b : F) (p : 'I_P.+1) : F := b ^+ p.+1 / \sum_(q < P.+1) b ^+ q.+1.
(** Weight of observation j: the global part a plus, for every occurrence in the neighbour list, the
    mixture of one and the powers of the kernel value. *)
Definition sca_weight (gp : nat -> F -> F) (b a : F) (nb : seq ('I_n * F)) : 'cV[F]_n :=
  \col_j (a + \sum_(q <- nb | q.1 == j) \sum_(p < P.+1) share b p * (if nat_of_ord p == 0%N then 1 else gp p q.2)).
End S.
