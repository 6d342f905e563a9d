(** Vocabulary of the theorems on GWPCA. *)
From mathcomp Require Import all_ssreflect all_algebra.
Set Implicit Arguments. Unset Strict Implicit. Unset Printing Implicit Defensive.
Import GRing.Theory Num.Theory.
Local Open Scope ring_scope.

Section S.
Variables (F : realFieldType) (n p : nat).
(** Contract of svd: V is orthogonal, the singular values (min(n,p) of them) are non-negative and
    descending, and A'A V = V diag(d^2), with zeros beyond the singular values. *)
Definition svd_contract (svd : 'M[F]_(n, p) -> option (seq F * 'M[F]_p)) : Prop :=
  forall A d V, svd A = Some (d, V) ->
  [/\ V^T *m V = 1%:M, size d = minn n p, (forall i j, (i <= j)%N -> 0 <= nth 0 d j <= nth 0 d i) &
      A^T *m A *m V = V *m \matrix_(i, j) (if i == j then nth 0 d i ^+ 2 else 0)].

(** [sq] is a root of the numbers used. *)
Definition roots (sq : F -> F) (D : F -> Prop) : Prop := forall a, D a -> 0 <= sq a /\ sq a ^+ 2 = a.

(** Weighted mean, and weighted sum of squared deviations of the scores of direction [u]. *)
Definition wmean (x : 'M[F]_(n, p)) (w : 'cV[F]_n) (c : 'I_p) : F :=
  (\sum_l w l ord0 * x l c) / \sum_l w l ord0.
Definition score_variation (x : 'M[F]_(n, p)) (w : 'cV[F]_n) (u : 'cV[F]_p) : F :=
  \sum_l w l ord0 * (\sum_c (x l c - wmean x w c) * u c ord0) ^+ 2.
(** Weighted sum of squared deviations of all variables. *)
Definition variation (x : 'M[F]_(n, p)) (w : 'cV[F]_n) : F :=
  \sum_l w l ord0 * \sum_c (x l c - wmean x w c) ^+ 2.
Definition dot (u v : 'cV[F]_p) : F := \sum_c u c ord0 * v c ord0.
End S.
