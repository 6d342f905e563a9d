(** Vocabulary of C171. *)
From mathcomp Require Import all_ssreflect all_algebra.
Set Implicit Arguments. Unset Strict Implicit. Unset Printing Implicit Defensive.
Import GRing.Theory.
Local Open Scope ring_scope.

Section S.
Variables (F : realFieldType) (n : nat).
(** The matrix that takes a response to the fitted values of weighted local regressions on one variable: row a is x_a (w_a x)^T / sum w_a x^2. *)
Definition smoother (x : 'cV[F]_n) (W : 'I_n -> 'cV[F]_n) : 'M[F]_n :=
  \matrix_(a, k) (x a ord0 * (W a k ord0 * x k ord0) / \sum_l W a l ord0 * x l ord0 ^+ 2).
(** What variable i contributes to the fitted values. *)
Definition share (p : nat) (x b : 'M[F]_(n, p)) (i : 'I_p) : 'cV[F]_n := \col_j (x j i * b j i).
(** Contributions of two variables each of which is what its smoother makes of what the other leaves. *)
Definition additive_solution (S1 S2 : 'M[F]_n) (y f1 f2 : 'cV[F]_n) : Prop := f1 = S1 *m (y - f2) /\ f2 = S2 *m (y - f1).

(** Three observations: rows (1, 1), (3, 2), (1, 1), response 1, 2, 3. *)
Definition dv_x : 'M[F]_(3, 2) := \matrix_(j, i) (if j == 1%N :> nat then (if i == ord0 then 3%:R else 2%:R) else 1).
Definition dv_y : 'cV[F]_3 := \col_j (j.+1)%:R.
(** The third lies outside the bandwidths of both variables; the weight between the first two is 1 for the first variable and 1/6 for the second. *)
Definition dv_wt (i : 'I_2) (bw : F) (a : 'I_3) : 'cV[F]_3 :=
  \col_k (if a == k then 1 else if ((a < 2) && (k < 2))%N then (if i == ord0 then 1 else 6%:R^-1) else 0).
(** Coefficients without residuals. *)
Definition dv_b : 'M[F]_(3, 2) := \matrix_(j, i) (if i == ord0 then (if j == 2%N :> nat then 2%:R else 0) else 1).
End S.
