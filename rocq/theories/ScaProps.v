(** C81, C108, C110-C112: scalable GWR. *)
From mathcomp Require Import all_ssreflect all_algebra.
From Verif Require Import Outcome GwrModel GwrSpec GwrProofs GwrCases ScaModel ScaSpec ScaProofs ScaCases.
Set Implicit Arguments. Unset Strict Implicit. Unset Printing Implicit Defensive.
Import Order.TTheory GRing.Theory Num.Theory.
Local Open Scope ring_scope.

(** C81: the polynomial weights are defined for positive b, non-negative, sum to one, and each is b times
    the one before. *)
Theorem C81_convex : forall (F : realFieldType) P (b : F), 0 < b -> exists R0, poly_weights P b = Some R0 /\
  (forall p, 0 <= R0 p) /\ (\sum_p R0 p = 1) /\
  (forall p q : 'I_P.+1, nat_of_ord q = p.+1 -> R0 q = b * R0 p).
Proof. exact poly_convex. Qed.
Print Assumptions C81_convex.
(** C81: writers and readers of the moments use the same positions, inside the vector, different for
    different (k1, p, k2); the same for the moments of y. *)
Theorem C81_same : forall k P k1 p k2, xindex_w k P k1 p k2 = xindex_r k P k1 p k2.
Proof. exact xindex_same. Qed.
Print Assumptions C81_same.
Theorem C81_range : forall k P k1 p k2, (k1 < k)%N -> (p < P.+1)%N -> (k2 < k)%N ->
  (xindex_r k P k1 p k2 < P.+1 * k * k)%N /\ (yindex k p k1 < P.+1 * k)%N.
Proof. exact (fun k P k1 p k2 h1 hp h2 => conj (xindex_range h1 hp h2) (yindex_range hp h1)). Qed.
Print Assumptions C81_range.
Theorem C81_different : forall k P k1 p k2 k1' p' k2', (p < P.+1)%N -> (p' < P.+1)%N -> (k2 < k)%N -> (k2' < k)%N ->
  xindex_r k P k1 p k2 = xindex_r k P k1' p' k2' -> [/\ k1 = k1', p = p' & k2 = k2'].
Proof. exact xindex_inj. Qed.
Print Assumptions C81_different.
Theorem C81_different_y : forall k p k1 p' k1', (k1 < k)%N -> (k1' < k)%N ->
  yindex k p k1 = yindex k p' k1' -> p = p' /\ k1 = k1'.
Proof. exact yindex_inj. Qed.
Print Assumptions C81_different_y.
(** C81: the packed moments give the weighted cross products with the weights of the specification; no
    index is refused. *)
Theorem C81_moments : forall (F : realFieldType) n k P gp (x : 'M[F]_(n, k)) (y : 'cV[F]_n) (b a : F) nb (R0 : 'I_P.+1 -> F),
  poly_weights P b = Some R0 ->
  exists m my, local_sums gp x y R0 a nb = Ok (m, my) /\ let w := sca_weight P gp b a nb in
  (forall c d, m c d = \sum_j x j c * w j ord0 * x j d) /\ (forall c, my c ord0 = \sum_j x j c * w j ord0 * y j ord0).
Proof. exact moments_main. Qed.
Print Assumptions C81_moments.
Example C81_case : exists R0, poly_weights 4 (2%:R : rat) = Some R0 /\ \sum_p R0 p = 1.
Proof. by have [R0 [E [_ [S _]]]] := poly_convex 4 (ltr0n _ 2 : 0 < (2%:R : rat)); exists R0. Qed.

(** C108: with positive scale, non-negative penalty and kernel powers, the coefficients predicted at a
    location are the only minimiser of the residual sum of squares under the scalable weights; so
    are those of a fit, wherever the inverse exists. *)
Theorem C108_predict : forall (F : realFieldType) n k P (inv : 'M[F]_k -> option 'M[F]_k) gp
    (x : 'M[F]_(n, k)) (y : 'cV[F]_n) b a nb beta,
  inverse_contract inv -> (forall p g, 0 <= gp p g) -> 0 < b -> 0 <= a ->
  sca_predict P inv gp x y b a nb = Ok (Some beta) -> only_minimiser x y (sca_weight P gp b a nb) beta.
Proof. exact (fun F n k P inv gp x y b a nb beta c g0 => @predict_main F n k P inv gp c g0 x y b a nb beta). Qed.
Print Assumptions C108_predict.
Example C108_predict_case : (forall p g, 0 <= gp1 p g) /\
  exists beta, sca_predict 4 (@exact_inv _ 1) gp1 ex_x ex_y 1 0 (own (ord0 : 'I_2)) = Ok (Some beta).
Proof. exact (conj gp1_0 (ex_pred 4)). Qed.
Theorem C108_fit : forall (F : realFieldType) n k P (inv : 'M[F]_k -> option 'M[F]_k) gp
    (x : 'M[F]_(n, k)) (y : 'cV[F]_n) b a NB r,
  inverse_contract inv -> (forall p g, 0 <= gp p g) -> 0 < b -> 0 <= a ->
  sca_fit P inv gp x y b a NB = Ok (Some r) ->
  forall i, let w := sca_weight P gp b a (NB i) in
    inv ((xtw x w *m x)^T *m (xtw x w *m x)) <> None -> only_minimiser x y w (r.1 i).
Proof. exact (fun F n k P inv gp x y b a NB r c g0 b0 a0 E => @fit_minimal F n k P inv gp c g0 x y b a NB r b0 a0 E). Qed.
Print Assumptions C108_fit.
Example C108_fit_case : exists r, sca_fit 4 (@exact_inv _ 1) gp1 ex_x ex_y 1 0 (@own 2) = Ok (Some r) /\
  (forall i, let w := sca_weight 4 gp1 1 0 (own i) in
     exact_inv ((xtw ex_x w *m ex_x)^T *m (xtw ex_x w *m ex_x)) <> None).
Proof. exact (ex_fit 4). Qed.

(** C110, refuted: a fit with two equal regressors succeeds and leaves the coefficients zero, although
    others fit exactly. *)
Theorem C110_reported_refuted : forall P, exists r,
  sca_fit P (@exact_inv _ 2) gp1 one2 (const_mx 1) 1 0 (@own 1) = Ok (Some r) /\
  r.1 ord0 = 0 /\ wrss one2 (const_mx 1) (sca_weight P gp1 1 0 (own ord0)) (r.1 ord0) = 1 /\
  wrss one2 (const_mx 1) (sca_weight P gp1 1 0 (own ord0)) (const_mx (2%:R^-1)) = 0.
Proof. exact ex_fail. Qed.
Print Assumptions C110_reported_refuted.
(** C110, what holds: fit never throws for positive scale; at observations without inverse the
    coefficients are zero.  predict throws there. *)
Theorem C110_zeros_partial : forall (F : realFieldType) n k P (inv : 'M[F]_k -> option 'M[F]_k) gp
    (x : 'M[F]_(n, k)) (y : 'cV[F]_n) b a NB, 0 < b ->
  exists r, sca_fit P inv gp x y b a NB = Ok (Some r) /\
  forall i, let w := sca_weight P gp b a (NB i) in
    inv ((xtw x w *m x)^T *m (xtw x w *m x)) = None ->
    r.1 i = 0 /\ sca_predict P inv gp x y b a (NB i) = Throw.
Proof. exact zeros_main. Qed.
Print Assumptions C110_zeros_partial.

(** C111, refuted: the trace reported by the fit is 5/4, but the fitted values of every dependent variable are that
    variable itself: the hat matrix is the identity with trace 2. *)
Theorem C111_trace_refuted : forall P, exists r, sca_fit P (@exact_inv _ 1) gp1 ex_x ex_y 1 0 (@own 2) = Ok (Some r) /\
  r.2 = 5%:R / 4%:R /\ (forall y r', sca_fit P (@exact_inv _ 1) gp1 ex_x y 1 0 (@own 2) = Ok (Some r') ->
    \col_i (ex_x *m r'.1 i) i ord0 = 1%:M *m y).
Proof. exact ex_trace. Qed.
Print Assumptions C111_trace_refuted.

(** C112, what holds: the CV criterion is the sum of squared residuals of the weighted least squares fits with the
    scalable weights of the given neighbour lists.  Missing: the observation itself is left out (next
    theorem and C82). *)
Theorem C112_criterion_partial : forall (F : realFieldType) n k P gp solve (x : 'M[F]_(n, k)) (y : 'cV[F]_n) b a NB v,
  (forall p g, 0 <= gp p g) -> 0 < b -> 0 <= a ->
  (forall A c z, solve A c = Some z -> A *m z = c /\ A \in unitmx) ->
  loocv P gp solve x y b a NB = Ok (Some v) ->
  exists beta : 'I_n -> 'cV[F]_k, (v = \sum_i (y i ord0 - (x *m beta i) i ord0) ^+ 2) /\
    forall i, only_minimiser x y (sca_weight P gp b a (NB i)) (beta i).
Proof. exact (fun F n k P gp solve x y b a NB v g0 => @loocv_main F n k P gp g0 solve x y b a NB v). Qed.
Print Assumptions C112_criterion_partial.
Example C112_case : (forall A c z, exact_solve A c = Some z -> A *m z = c /\ A \in unitmx) /\
  exists v, loocv 4 gp1 exact_solve ex_x ex_y 1 0 (@own 2) = Ok (Some v).
Proof. exact (conj exact_solve_ok (ex_loocv 4)). Qed.
(** C112, refuted: the own weight is at least the penalty plus the share of the constant term for every
    occurrence in the neighbour list; it is positive as soon as the observation is in its list or the
    penalty is positive. *)
Theorem C112_leave_one_out_refuted : forall (F : realFieldType) n P gp (b a : F) (nb : seq ('I_n * F)) (i : 'I_n),
  (forall p g, 0 <= gp p g) -> 0 < b -> 0 <= a ->
  0 < a \/ (exists g, (i, g) \in nb) -> 0 < sca_weight P gp b a nb i ord0.
Proof. exact own_positive. Qed.
Print Assumptions C112_leave_one_out_refuted.
Example C112_own_case : exists g, ((ord0 : 'I_2), g) \in own (ord0 : 'I_2).
Proof. by exists 1; rewrite inE. Qed.
