(** Vocabulary of C152. *)
From mathcomp Require Import all_ssreflect all_algebra.
Set Implicit Arguments. Unset Strict Implicit. Unset Printing Implicit Defensive.
Import GRing.Theory.
Local Open Scope ring_scope.

Section S.
Variables (F : realFieldType) (n p : nat).
(** Coefficients that are linear in the response: coefficient i at observation j is C j i times y. *)
Definition linear_coefficients (C : 'I_n -> 'I_p -> 'rV[F]_n) (y : 'cV[F]_n) (b : 'M[F]_(n, p)) : Prop :=
  forall j i, b j i = \sum_k C j i ord0 k * y k ord0.
(** Variance of such a coefficient, when the responses are uncorrelated with variance s2. *)
Definition variance (s2 : F) (C : 'I_n -> 'I_p -> 'rV[F]_n) (j : 'I_n) (i : 'I_p) : F :=
  s2 * \sum_k (C j i ord0 k) ^+ 2.
(** Hat matrix of the coefficients. *)
Definition hat_of (x : 'M[F]_(n, p)) (C : 'I_n -> 'I_p -> 'rV[F]_n) : 'M[F]_n :=
  \matrix_(j, k) \sum_i x j i * C j i ord0 k.
End S.
