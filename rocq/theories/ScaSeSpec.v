(** Vocabulary of the theorems on the standard errors of scalable GWR. *)
From mathcomp Require Import all_ssreflect all_algebra.
From Verif Require Import ScaSpec.
Set Implicit Arguments. Unset Strict Implicit. Unset Printing Implicit Defensive.
Import GRing.Theory.
Local Open Scope ring_scope.

Section S.
Variables (F : realFieldType) (n k P : nat).
(** Term p of the weight of a neighbour with kernel value g. *)
Definition term (gp : nat -> F -> F) (b : F) (p : 'I_P.+1) (g : F) : F :=
  share b p * (if nat_of_ord p == 0%N then 1 else gp p g).
(** What stands for the square of the weight of observation j: the squares of the terms without their products. *)
Definition second_weight (gp : nat -> F -> F) (b a : F) (nb : seq ('I_n * F)) : 'cV[F]_n :=
  \col_j (a ^+ 2 + 2%:R * a * (\sum_(q <- nb | q.1 == j) \sum_(p < P.+1) term gp b p q.2)
          + \sum_(q <- nb | q.1 == j) \sum_(p < P.+1) (term gp b p q.2) ^+ 2).
(** X' diag(w) X *)
Definition cross (x : 'M[F]_(n, k)) (w : 'cV[F]_n) : 'M[F]_k := \matrix_(c, d) \sum_j x j c * w j ord0 * x j d.
(** Residual sum of squares of the fitted values x_i b_i. *)
Definition residual_squares (x : 'M[F]_(n, k)) (y : 'cV[F]_n) (beta : 'I_n -> 'cV[F]_k) : F :=
  \sum_i (y i ord0 - (row i x *m beta i) ord0 ord0) ^+ 2.
(** An inverse that succeeds exactly for invertible matrices. *)
Definition inverts_units (inv : 'M[F]_k -> option 'M[F]_k) : Prop :=
  forall A, match inv A with Some B => B *m A = 1%:M | None => A \notin unitmx end.
End S.
