(** Vocabulary of the theorems on local ridge regression. *)
From mathcomp Require Import all_ssreflect all_algebra.
From Verif Require Import GwrSpec.
Set Implicit Arguments. Unset Strict Implicit. Unset Printing Implicit Defensive.
Import GRing.Theory.
Local Open Scope ring_scope.

Section S.
Variables (F : realFieldType) (n p : nat).
(** Unbiased sample variance. *)
Definition sample_variance (v : 'cV[F]_n) : F :=
  (\sum_j (v j ord0 - (\sum_k v k ord0) / n%:R) ^+ 2) / (n%:R - 1).
(** Factor of coefficient [a] in the penalty: 1 for the first column (the intercept), the variance of
    the regressor for the others. *)
Definition penalty_scale (x : 'M[F]_(n, p)) (a : 'I_p) : F :=
  if nat_of_ord a == 0%N then 1 else sample_variance (col a x).
(** Weighted residual sum of squares plus lambda times the scaled squared coefficients. *)
Definition penalised (x : 'M[F]_(n, p)) (y w : 'cV[F]_n) (lambda : F) (b : 'cV[F]_p) : F :=
  wrss x y w b + lambda * \sum_a penalty_scale x a * b a ord0 ^+ 2.
Definition ridge_minimiser x y w lambda b : Prop :=
  forall b', (penalised x y w lambda b <= penalised x y w lambda b') /\
             (penalised x y w lambda b' = penalised x y w lambda b -> b' = b).
(** The same without observation i; the scales are those of the whole sample. *)
Definition penalised_without (i : 'I_n) (x : 'M[F]_(n, p)) (y w : 'cV[F]_n) (lambda : F) (b : 'cV[F]_p) : F :=
  \sum_(j | j != i) w j ord0 * (y j ord0 - (x *m b) j ord0) ^+ 2
  + lambda * \sum_a penalty_scale x a * b a ord0 ^+ 2.
Definition ridge_minimiser_without i x y w lambda b : Prop :=
  forall b', (penalised_without i x y w lambda b <= penalised_without i x y w lambda b') /\
             (penalised_without i x y w lambda b' = penalised_without i x y w lambda b -> b' = b).
(** [sq] is exact on 0, on the weights and on the variances of the regressors. *)
Definition exact_roots (sq : F -> F) (x : 'M[F]_(n, p)) (w : 'cV[F]_n) : Prop :=
  sq 0 = 0 /\ (forall j, 0 <= w j ord0 -> sq (w j ord0) ^+ 2 = w j ord0) /\
  (forall a, sq (sample_variance (col a x)) ^+ 2 = sample_variance (col a x)).
End S.
