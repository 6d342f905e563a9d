(** C151, C111: scalable GWR, standard errors and traces.  Vocabulary: ScaSpec.v, ScaSeSpec.v. *)
From mathcomp Require Import all_ssreflect all_algebra.
From Verif Require Import Outcome GwrSpec GwrCases ScaModel ScaSpec ScaCases ScaSeModel ScaSeSpec ScaSeMain.
Set Implicit Arguments. Unset Strict Implicit. Unset Printing Implicit Defensive.
Import Order.TTheory GRing.Theory Num.Theory.
Local Open Scope ring_scope.

(** C151, what is computed: with M = X'WX and B the inverse of M'M, the standard error before the scaling with the
    residual variance is the root of a diagonal entry of B M2 B, the traces are the sums of x_i B x_i' and
    x_i B' M2 B x_i'; what is reported is the root of RSS / (n - 2 tr S + tr S'S) times that.  Missing: B is not the inverse of M, and M2 is not X'WWX (below). *)
Theorem C151_computed_partial : forall (F : realFieldType) n k P (inv : 'M[F]_k -> option 'M[F]_k) gp sq
    (x : 'M[F]_(n, k)) (y : 'cV[F]_n) b a NB, 0 < b -> exists r,
  fit_serial P inv gp sq x y b a NB = Ok (Some r) /\
  (forall i B, let M := cross x (sca_weight P gp b a (NB i)) in inv (M^T *m M) = Some B ->
     forall d, s_bse r i d ord0 = sq ((B *m cross x (second_weight P gp b a (NB i)) *m B) d d)) /\
  (forall B, (forall i, let M := cross x (sca_weight P gp b a (NB i)) in inv (M^T *m M) = Some (B i)) ->
     s_trS r = \sum_i (row i x *m B i *m (row i x)^T) ord0 ord0 /\
     s_trStS r = \sum_i (row i x *m (B i)^T *m cross x (second_weight P gp b a (NB i)) *m B i *m (row i x)^T) ord0 ord0) /\
  (forall i d, betas_se sq x y r i d ord0 =
     sq (residual_squares x y (s_betas r) / (n%:R - 2%:R * s_trS r + s_trStS r) * s_bse r i d ord0)).
Proof. exact computed_main. Qed.
Print Assumptions C151_computed_partial.

(** C151, refuted: with four observations of the constant regressor the coefficient is the mean of the four
    responses, with variance factor 1/4.  Whatever the square root, the reported standard error is
    the root of sigma times the root of 1/64; the trace is 1/4 instead of 1. *)
Theorem C151_reported_refuted : forall (sq : rat -> rat) (y : 'cV[rat]_4), exists r,
  fit_serial 0 (@exact_inv _ 1) gp1 sq ones4 y 1 0 all4 = Ok (Some r) /\
  (forall i, s_betas r i ord0 ord0 = \sum_j 4%:R^-1 * y j ord0) /\
  (forall i, betas_se sq ones4 y r i ord0 ord0 = sq ((\sum_j (y j ord0 - \sum_l 4%:R^-1 * y l ord0) ^+ 2) / (4%:R - 2%:R * s_trS r + s_trStS r) * sq (64%:R)^-1)) /\
  s_trS r = 4%:R^-1.
Proof. exact reported_main. Qed.
Print Assumptions C151_reported_refuted.

(** C151, refuted for all data: measuring the regressors in another unit (c times the values) leaves every fitted
    value, but divides the traces by c^2 and c^4 and the radicand [v] of the standard error by c^6 (c^2 would
    be right for the latter, no change for the former). *)
Theorem C151_units_refuted : forall (F : realFieldType) n k P (inv : 'M[F]_k -> option 'M[F]_k) gp, inverts_units inv ->
  forall (x : 'M[F]_(n, k)) (y : 'cV[F]_n) b a NB c, 0 < b -> c != 0 ->
  exists v : 'I_n -> 'cV[F]_k, forall sq, sq 0 = 0 -> exists r r',
  fit_serial P inv gp sq x y b a NB = Ok (Some r) /\ fit_serial P inv gp sq (c *: x) y b a NB = Ok (Some r') /\
  (forall i, row i (c *: x) *m s_betas r' i = row i x *m s_betas r i) /\
  s_trS r' = s_trS r / c ^+ 2 /\ s_trStS r' = s_trStS r / c ^+ 4 /\
  (forall i d, s_bse r i d ord0 = sq (v i d ord0) /\ s_bse r' i d ord0 = sq (v i d ord0 / c ^+ 6)).
Proof. exact units_main. Qed.
Print Assumptions C151_units_refuted.
Example C151_units_case : inverts_units (@exact_inv rat_realFieldType 1) /\ (2%:R : rat) != 0.
Proof. exact (conj (@exact_inverts _ _) isT). Qed.

(** C151, refuted for all data: the squared weights in M2 are too small at every neighbour whenever the polynomial
    has a degree and the kernel is positive; they are never too large ... *)
Theorem C151_second_moment_refuted : forall (F : realFieldType) n P (gp : nat -> F -> F) (nb : seq ('I_n * F)) b a,
  (0 < P)%N -> 0 < b -> 0 <= a -> (forall p g, 0 < gp p g) -> forall j,
  j \in [seq q.1 | q <- nb] -> second_weight P gp b a nb j ord0 < (sca_weight P gp b a nb j ord0) ^+ 2.
Proof. exact second_lt. Qed.
Print Assumptions C151_second_moment_refuted.
Example C151_second_moment_case : (0 < 4)%N /\ (forall (p : nat) (g : rat), 0 < 1 + `|g|) /\
  ord0 \in [seq q.1 | q <- [:: ((ord0 : 'I_2), (1 : rat))]].
Proof. by split=> //; split=> // p g; rewrite ltr_paddr. Qed.
Theorem C151_second_moment : forall (F : realFieldType) n P (gp : nat -> F -> F) (nb : seq ('I_n * F)) b a,
  0 < b -> 0 <= a -> (forall p g, 0 <= gp p g) -> forall j,
  second_weight P gp b a nb j ord0 <= (sca_weight P gp b a nb j ord0) ^+ 2.
Proof. exact second_le. Qed.
Print Assumptions C151_second_moment.
(** ... and right with degree zero when no neighbour is listed twice. *)
Theorem C151_second_moment_partial : forall (F : realFieldType) n P (gp : nat -> F -> F) (nb : seq ('I_n * F)) b a,
  P = 0%N -> uniq [seq q.1 | q <- nb] -> forall j,
  second_weight P gp b a nb j ord0 = (sca_weight P gp b a nb j ord0) ^+ 2.
Proof. exact second_eq. Qed.
Print Assumptions C151_second_moment_partial.

(** C111, refuted for all data: another unit of the regressors leaves the fitted values, that is the hat matrix, but
    divides the reported trace by c^2. *)
Theorem C111_units_refuted : forall (F : realFieldType) n k P (inv : 'M[F]_k -> option 'M[F]_k) gp
    (x : 'M[F]_(n, k)) (y : 'cV[F]_n) b a NB c, inverts_units inv -> 0 < b -> c != 0 -> exists r r',
  sca_fit P inv gp x y b a NB = Ok (Some r) /\ sca_fit P inv gp (c *: x) y b a NB = Ok (Some r') /\
  (forall i, row i (c *: x) *m r'.1 i = row i x *m r.1 i) /\ r'.2 = r.2 / c ^+ 2.
Proof. exact trace_units. Qed.
Print Assumptions C111_units_refuted.
