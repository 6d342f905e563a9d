(** C175: how far the coefficients of basic GWR move when the weights do, and what large bandwidths give (GWRBasic.cpp:246-289). *)
From mathcomp Require Import all_ssreflect all_algebra.
From Verif Require Import Outcome GwrModel GwrSpec GwrProofs LevCases LimCases.
Set Implicit Arguments. Unset Strict Implicit. Unset Printing Implicit Defensive.
Import Order.TTheory GRing.Theory Num.Theory.
Local Open Scope ring_scope.

(** Two sets of weights that differ by at most a fraction d: the fitted values at one location differ, in the first weighting, by at
    most d / (1 - d) times the residuals there. *)
Theorem C175_sensitivity : forall (F : realFieldType) n p (inv : 'M[F]_p -> option 'M[F]_p) storeS storeC lo hi
    (x : 'M[F]_(n, p)) (y : 'cV[F]_n) (W W' : 'I_n -> 'cV[F]_n) s s' (i : 'I_n) d, inverse_contract inv ->
  fit_core inv storeS storeC lo hi x y W (fun _ => false) = Ok (s, false) ->
  fit_core inv storeS storeC lo hi x y W' (fun _ => false) = Ok (s', false) ->
  (lo <= i < hi)%N -> (forall j, 0 <= W i j ord0) -> 0 <= d < 1 ->
  (forall j, `|W' i j ord0 - W i j ord0| <= d * W i j ord0) ->
  (1 - d) ^+ 2 * (\sum_j W i j ord0 * (\sum_a x j a * (betas s' a i - betas s a i)) ^+ 2) <=
  d ^+ 2 * \sum_j W i j ord0 * (y j ord0 - \sum_a x j a * betas s a i) ^+ 2.
Proof. exact sensitivity_sum. Qed.
Print Assumptions C175_sensitivity.
(** Equal weights against those of the corners of a square. *)
Example C175_sensitivity_case :
  [/\ exists s, fit_core (@exact_inv _ 1) true true 0 4 (one_x _ 4) (\col_j j%:R) (fun _ => const_mx (1 : rat)) (fun _ => false) = Ok (s, false),
      exists s, fit_core (@exact_inv _ 1) true true 0 4 (one_x _ 4) (\col_j j%:R) (corner (2%:R^-1 : rat)) (fun _ => false) = Ok (s, false) &
      forall i j, `|corner (2%:R^-1 : rat) i j ord0 - (const_mx 1 : 'cV_4) j ord0| <= 3%:R / 4%:R * (const_mx 1 : 'cV_4) j ord0].
Proof. exact near_case. Qed.

(** Weights within d of 1: the coefficients b of the global regression take the place of one of the fits. *)
Theorem C175_global : forall (F : realFieldType) n p (inv : 'M[F]_p -> option 'M[F]_p) storeS storeC lo hi
    (x : 'M[F]_(n, p)) (y : 'cV[F]_n) (W : 'I_n -> 'cV[F]_n) s (b : 'cV[F]_p) (i : 'I_n) d, inverse_contract inv ->
  x^T *m (y - x *m b) = 0 -> fit_core inv storeS storeC lo hi x y W (fun _ => false) = Ok (s, false) ->
  (lo <= i < hi)%N -> 0 <= d < 1 -> (forall j, `|W i j ord0 - 1| <= d) ->
  (1 - d) ^+ 2 * (\sum_j (\sum_a x j a * (betas s a i - b a ord0)) ^+ 2) <=
  d ^+ 2 * \sum_j (y j ord0 - \sum_a x j a * b a ord0) ^+ 2.
Proof. exact global_sum. Qed.
Print Assumptions C175_global.
Example C175_global_case : (one_x [realFieldType of rat] 4)^T *m (\col_j j%:R - one_x [realFieldType of rat] 4 *m const_mx (3%:R / 2%:R)) = 0.
Proof. exact mean_case. Qed.

(** So as the weights approach 1 the coefficients at every location approach those of the global regression: with independent columns
    the fit succeeds, and its coefficients are as close as wanted. *)
Theorem C175_limit : forall (F : realFieldType) n p storeS storeC lo hi
    (x : 'M[F]_(n, p)) (y : 'cV[F]_n) (b : 'cV[F]_p) (e : F),
  (forall v : 'cV[F]_p, x *m v = 0 -> v = 0) -> x^T *m (y - x *m b) = 0 -> 0 < e ->
  exists2 d, 0 < d & forall W : 'I_n -> 'cV[F]_n,
    (forall i j, `|W i j ord0 - 1| <= d) ->
    exists s, fit_core (@exact_inv F p) storeS storeC lo hi x y W (fun _ => false) = Ok (s, false) /\
      forall (i : 'I_n) a, (lo <= i < hi)%N -> `|betas s a i - b a ord0| <= e.
Proof. exact limit_full. Qed.
Print Assumptions C175_limit.
Example C175_limit_case : forall v : 'cV[rat]_1, one_x _ 4 *m v = 0 -> v = 0.
Proof. exact mean_independent. Qed.

(** The same for any inverse that fulfils its contract, where the fit succeeds. *)
Theorem C175_limit_any : forall (F : realFieldType) n p (inv : 'M[F]_p -> option 'M[F]_p) storeS storeC lo hi
    (x : 'M[F]_(n, p)) (y : 'cV[F]_n) (b : 'cV[F]_p) (e : F), inverse_contract inv ->
  (forall v : 'cV[F]_p, x *m v = 0 -> v = 0) -> x^T *m (y - x *m b) = 0 -> 0 < e ->
  exists2 d, 0 < d & forall (W : 'I_n -> 'cV[F]_n) s (i : 'I_n),
    fit_core inv storeS storeC lo hi x y W (fun _ => false) = Ok (s, false) ->
    (lo <= i < hi)%N -> (forall j, `|W i j ord0 - 1| <= d) -> forall a, `|betas s a i - b a ord0| <= e.
Proof. exact limit_any. Qed.
Print Assumptions C175_limit_any.
Example C175_any_case : inverse_contract (@exact_inv [realFieldType of rat] 1).
Proof. exact: exact_inv_contract. Qed.
