(** Vocabulary of C53-C57. *)
From mathcomp Require Import all_ssreflect all_algebra.
Set Implicit Arguments. Unset Strict Implicit. Unset Printing Implicit Defensive.
Import GRing.Theory.
Local Open Scope ring_scope.

Section S.
Variables (F : realFieldType) (n p : nat).
(** The hat matrices of the variables add up to the total one; each maps y to the
    contribution of its variable; the total maps y to the fitted values. *)
Definition hats_consistent (x b : 'M[F]_(n, p)) (y : 'cV[F]_n) (S0 : 'M[F]_n) (SA : 'I_p -> 'M[F]_n) : Prop :=
  [/\ S0 = \sum_i SA i,
      forall i j, (SA i *m y) j ord0 = x j i * b j i &
      forall j, (S0 *m y) j ord0 = \sum_i x j i * b j i].

(** Response left for variable i by all the other variables. *)
Definition partial_residual (x b : 'M[F]_(n, p)) (y : 'cV[F]_n) (i : 'I_p) : 'cV[F]_n :=
  \col_j (y j ord0 - \sum_(k | k != i) x j k * b j k).

(** Residual sum of squares of a coefficient matrix. *)
Definition rss_of (x b : 'M[F]_(n, p)) (y : 'cV[F]_n) : F :=
  \sum_j (y j ord0 - \sum_i x j i * b j i) ^+ 2.

Definition column_mean_zero (x : 'M[F]_(n, p)) (i : 'I_p) : Prop := \sum_j x j i = 0.
End S.

(** Sweeps over the variables in order; sweep number k gets as far as variable m_k. *)
Definition sweeps (p : nat) (ms : seq nat) : seq 'I_p := flatten [seq take m (enum 'I_p) | m <- ms].
