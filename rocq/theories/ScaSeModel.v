(** Scalable GWR, standard errors and traces: /repo/src/gwmodelpp/GWRScalable.cpp, fitSerial (520-663) in full
    and the end of fit (507-515), conventions of ScaModel.v; the stop telegram is not modelled.
    [sq] is std::sqrt. *)
From mathcomp Require Import all_ssreflect all_algebra.
From Verif Require Import Outcome ScaModel.
Set Implicit Arguments. Unset Strict Implicit. Unset Printing Implicit Defensive.
Import GRing.Theory.
Local Open Scope ring_scope.

Section Se.
Variables (F : realFieldType) (n k P : nat).
Variable inv : 'M[F]_k -> option 'M[F]_k.
Variable gp : nat -> F -> F.
Variable sq : F -> F.

(** mMxx0 of one observation (562-576), from XtG2 = x % G % G; written by the same loops as mMx0. *)
Definition prepare2 (x : 'M[F]_(n, k)) (nb : seq ('I_n * F)) : outcome (nat -> F) :=
  for_ (enum 'I_k) (fun k1 mx =>
    for_ (enum 'I_P.+1) (fun p mx =>
      for_ (enum 'I_k) (fun k2 mx =>
        write (xsize k P) (xindex_w k P k1 p k2) (\sum_(q <- nb) x q.1 k1 * G gp p q.2 * G gp p q.2 * x q.1 k2) mx) mx) mx)
    (fun _ => 0).

(** sumMx2 (609-610, 616-634): Mx2 = 2 a Mx + Rx % Rx % Mxx0, collected as sumMx is. *)
Definition local_sums2 (x : 'M[F]_(n, k)) (y : 'cV[F]_n) (R0 : 'I_P.+1 -> F) (a : F) (nb : seq ('I_n * F)) : outcome 'M[F]_k :=
  let* m := prepare P gp x y nb in
  let* mxx0 := prepare2 x nb in
  let* r := spread k R0 in
  let* s := collect k P (fun j => 2%:R * a * (r.1 j * m.1 j) + r.1 j * r.1 j * mxx0 j) (fun j => r.2 j * m.2 j) in
  Ok (\matrix_(c, d) s.1 c d + (a * a) *: (x^T *m x)).

(** betas, bse, trS, trStS *)
Record serial := Serial { s_betas : 'I_n -> 'cV[F]_k; s_bse : 'I_n -> 'cV[F]_k; s_trS : F; s_trStS : F }.

(** 636-658; the catch block only logs. *)
Definition serial_step (x : 'M[F]_(n, k)) y R0 a (NB : 'I_n -> seq ('I_n * F)) (i : 'I_n) (st : serial) : outcome serial :=
  let* m := local_sums gp x y R0 a (NB i) in
  let* m2 := local_sums2 x y R0 a (NB i) in
  match inv (m.1^T *m m.1) with
  | None => Ok st
  | Some sumMxR =>
      let trS00 := sumMxR *m (row i x)^T in
      let trStS00 := m2 *m trS00 in
      let beta := sumMxR *m (m.1^T *m m.2) in
      let bse00 := sumMxR *m m2 *m sumMxR in
      Ok (Serial (fun j => if j == i then beta else s_betas st j)
                 (fun j => if j == i then \col_c sq (bse00 c c) else s_bse st j)
                 (s_trS st + (row i x *m trS00) ord0 ord0)
                 (s_trStS st + \sum_c trS00 c ord0 * trStS00 c ord0))
  end.
Definition fit_serial (x : 'M[F]_(n, k)) y (b a : F) NB : outcome (option serial) :=
  match poly_weights P b with
  | None => Ok None
  | Some R0 => let* r := for_ (enum 'I_n) (serial_step x y R0 a NB) (Serial (fun _ => 0) (fun _ => 0) 0 0) in Ok (Some r)
  end.

(** fit 507-515: sigmaHat and the final mBetasSE.  RSS is that of CalcDiagnostic (131-132). *)
Definition sca_rss (x : 'M[F]_(n, k)) (y : 'cV[F]_n) (betas : 'I_n -> 'cV[F]_k) : F :=
  \sum_i (y i ord0 - \sum_c betas i c ord0 * x i c) * (y i ord0 - \sum_c betas i c ord0 * x i c).
Definition sigma_hat (x : 'M[F]_(n, k)) y (r : serial) : F :=
  sca_rss x y (s_betas r) / (n%:R - 2%:R * s_trS r + s_trStS r).
Definition betas_se (x : 'M[F]_(n, k)) y (r : serial) (i : 'I_n) : 'cV[F]_k :=
  \col_c sq (sigma_hat x y r * s_bse r i c ord0).
End Se.
