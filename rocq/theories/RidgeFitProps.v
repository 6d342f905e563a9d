(** C80, C104-C107: local ridge regression. *)
From mathcomp Require Import all_ssreflect all_algebra.
From Verif Require Import Outcome GwrModel GwrSpec RidgeFitModel RidgeFitSpec RidgeFitProofs RidgeFitCases.
Set Implicit Arguments. Unset Strict Implicit. Unset Printing Implicit Defensive.
Import Order.TTheory GRing.Theory Num.Theory.
Local Open Scope ring_scope.

(** C80: with lambda zero the coefficients are the weighted least squares ones. *)
Theorem C80_zero_lambda : forall (F : realFieldType) n p (inv : 'M[F]_p -> option 'M[F]_p) sq
    (x : 'M[F]_(n, p)) y w b,
  inverse_contract inv -> (1 < n)%N -> exact_roots sq x w ->
  ridgelm inv sq x y w 0 = Ok (Some b) -> only_minimiser x y w b.
Proof. exact (fun F n p inv sq x y w b c => @ridge_zero F n p inv sq c x y w b). Qed.
Print Assumptions C80_zero_lambda.
Example C80_zero_case : exact_roots id rx (const_mx 1) /\
  exists b, ridgelm (@exact_inv _ 2) id rx ry (const_mx 1) 0 = Ok (Some b).
Proof. exact (conj r_roots' (r_exists (lexx 0))). Qed.

(** C80, what holds of a second fit: it succeeds again with the same coefficients, and adds the same
    amounts to the traces once more.  Missing: the traces are not those of the first fit. *)
Theorem C80_second_fit_partial : forall (F : realFieldType) n p (inv : 'M[F]_p -> option 'M[F]_p) sq
    (x : 'M[F]_(n, p)) y W lam stop t r b,
  lc_fit inv sq t x y W lam stop = Ok (r, b) ->
  exists r', lc_fit inv sq (lc_trS r, lc_trStS r) x y W lam stop = Ok (r', b) /\
    lc_betas r' = lc_betas r /\
    lc_trS r' - lc_trS r = lc_trS r - t.1 /\ lc_trStS r' - lc_trStS r = lc_trStS r - t.2.
Proof. exact lc_second. Qed.
Print Assumptions C80_second_fit_partial.

(** C80, full statement refuted: the trace of the hat matrix is 2 after the first fit and 4 after the
    second (and with it every diagnostic that uses it). *)
Theorem C80_repeatable_refuted : exists s s' b b',
  lc_fit (@exact_inv _ 2) id (0, 0) rx ry rW (fun _ => 0) (fun _ => false) = Ok (s, b) /\
  lc_fit (@exact_inv _ 2) id (lc_trS s, lc_trStS s) rx ry rW (fun _ => 0) (fun _ => false) = Ok (s', b') /\
  lc_trS s = 2%:R /\ lc_trS s' = 4%:R.
Proof. exact r_second. Qed.
Print Assumptions C80_repeatable_refuted.

(** C104: for lambda at least zero the coefficients of every observation are the only minimiser of
    the weighted residual sum of squares plus lambda times the squared coefficients, scaled by the
    variance of their regressor (the intercept by one). *)
Theorem C104_ridge : forall (F : realFieldType) n p (inv : 'M[F]_p -> option 'M[F]_p) sq
    (x : 'M[F]_(n, p)) y W lam t s b,
  inverse_contract inv -> (1 < n)%N -> (forall i, exact_roots sq x (W i)) -> (forall i, 0 <= lam i) ->
  lc_fit inv sq t x y W lam (fun _ => false) = Ok (s, b) ->
  forall i bi, lc_betas s i = Some bi -> ridge_minimiser x y (W i) (lam i) bi.
Proof. exact (fun F n p inv sq x y W lam t s b c => @lc_coefficients F n p inv sq c x y W lam t s b). Qed.
Print Assumptions C104_ridge.
Example C104_case : (forall i, exact_roots id rx (rW i)) /\ exists s,
  lc_fit (@exact_inv _ 2) id (0, 0) rx ry rW (fun _ => 1) (fun _ => false) = Ok (s, false) /\
  (forall i, lc_betas s i = Some (rK 1 *m (rx^T *m ry))) /\ lc_trS s = 0 + 2%:R.
Proof. exact (conj r_roots (r_fit (0, 0) ler01 ry_var)). Qed.

(** C105, what holds: without ridge parameter and with weight one of every observation for itself,
    there is one matrix S that maps every dependent variable to the fitted values, and a fresh
    object's traces are those of S and S'S.  Missing: positive ridge parameters. *)
Theorem C105_traces_partial : forall (F : realFieldType) n p (inv : 'M[F]_p -> option 'M[F]_p) sq
    (x : 'M[F]_(n, p)) (W : 'I_n -> 'cV[F]_n),
  inverse_contract inv -> (1 < n)%N -> (forall i, exact_roots sq x (W i)) -> (forall i, W i i ord0 = 1) ->
  exists S : 'M[F]_n, forall y s b,
    lc_fit inv sq (0, 0) x y W (fun _ => 0) (fun _ => false) = Ok (s, b) ->
    (forall i bi, lc_betas s i = Some bi -> (x *m bi) i ord0 = (S *m y) i ord0) /\
    lc_trS s = \tr S /\ lc_trStS s = \tr (S^T *m S).
Proof. exact (fun F n p inv sq x W c => @lc_hat F n p inv sq c x W). Qed.
Print Assumptions C105_traces_partial.
Example C105_case : (forall i, rW i i ord0 = 1) /\ exists s,
  lc_fit (@exact_inv _ 2) id (0, 0) rx ry rW (fun _ => 0) (fun _ => false) = Ok (s, false) /\
  (forall i, lc_betas s i = Some (rK 0 *m (rx^T *m ry))) /\ lc_trS s = 0 + 2%:R.
Proof. exact (conj r_one (r_fit (0, 0) (lexx 0) ry_var)). Qed.

(** C105, full statement refuted: with lambda one no matrix gives both the fitted values and the trace. *)
Theorem C105_traces_refuted : ~ exists S : 'M[rat]_3, forall y s b,
  lc_fit (@exact_inv _ 2) id (0, 0) rx y rW (fun _ => 1) (fun _ => false) = Ok (s, b) ->
  (forall i bi, lc_betas s i = Some bi -> (rx *m bi) i ord0 = (S *m y) i ord0) /\ lc_trS s = \tr S.
Proof. exact r_trace. Qed.
Print Assumptions C105_traces_refuted.

(** C106: a finite cross-validation value is the sum of the squared errors of predicting every
    observation from the ridge coefficients of the others. *)
Theorem C106_leave_one_out : forall (F : realFieldType) n p (inv : 'M[F]_p -> option 'M[F]_p) sq
    (x : 'M[F]_(n, p)) (y : 'cV[F]_n) (W : 'I_n -> 'cV[F]_n) (lam : 'I_n -> F) v,
  inverse_contract inv -> (1 < n)%N -> (forall i, exact_roots sq x (W i)) -> (forall i, 0 <= lam i) ->
  lc_cv inv sq x y W lam = Ok (Some v) ->
  exists b : 'I_n -> 'cV[F]_p,
    (v = \sum_i (y i ord0 - (x *m b i) i ord0) ^+ 2) /\
    forall i, ridge_minimiser_without i x y (W i) (lam i) (b i).
Proof. exact (fun F n p inv sq x y W lam v c => @lc_cv_main F n p inv sq c x y W lam v). Qed.
Print Assumptions C106_leave_one_out.
Example C106_case : exists v, lc_cv (@exact_inv _ 2) id rx ry rW (fun _ => 1) = Ok (Some v).
Proof. exact r_cv. Qed.

(** C107, refuted: prediction at a location always fails in OpenMP mode, whatever the data, ... *)
Theorem C107_openmp_throws : forall (F : realFieldType) n p (inv : 'M[F]_p -> option 'M[F]_p) sq
    (x : 'M[F]_(n, p)) y w lambda,
  predict_omp_step inv sq x y w lambda = Throw.
Proof. exact predict_omp_throw. Qed.
Print Assumptions C107_openmp_throws.
(** ... while it succeeds serially. *)
Theorem C107_modes_refuted :
  predict_serial_step (@exact_inv _ 2) id rx ry (const_mx 1) 0 = Ok tt /\
  predict_omp_step (@exact_inv _ 2) id rx ry (const_mx 1) 0 = Throw.
Proof. exact r_modes. Qed.
Print Assumptions C107_modes_refuted.
(** C107: for every number of threads, assignment of iterations to threads and order, an OpenMP fit
    gives the coefficients and traces of a serial fit of a fresh object, or both throw.  Missing:
    objects that have been fitted before. *)
Theorem C107_fit_partial : forall (F : realFieldType) n p (inv : 'M[F]_p -> option 'M[F]_p) sq
    t k (thread : 'I_n -> 'I_k) (order : seq 'I_n) (x : 'M[F]_(n, p)) y W lam,
  perm_eq order (enum 'I_n) ->
  match lc_fit inv sq (0, 0) x y W lam (fun _ => false), lc_fit_omp inv sq t thread order x y W lam with
  | Ok (s, _), Ok s' => (forall i, lc_betas s' i = lc_betas s i) /\ lc_trS s' = lc_trS s /\ lc_trStS s' = lc_trStS s
  | Throw, Throw => True
  | _, _ => False
  end.
Proof. exact lc_omp. Qed.
Print Assumptions C107_fit_partial.
Example C107_case : perm_eq (rev (enum 'I_3)) (enum 'I_3).
Proof. by rewrite perm_rev. Qed.
(** C107, refuted for an object fitted before: its serial trace differs from the OpenMP one. *)
Theorem C107_fitted_refuted : exists t s s' b,
  lc_fit (@exact_inv _ 2) id t rx ry rW (fun _ => 0) (fun _ => false) = Ok (s, b) /\
  lc_fit_omp (@exact_inv _ 2) id t (fun _ => ord0 : 'I_1) (enum 'I_3) rx ry rW (fun _ => 0) = Ok s' /\
  lc_trS s <> lc_trS s'.
Proof. exact r_omp. Qed.
Print Assumptions C107_fitted_refuted.
