(** Model of the final regressions of generalised GWR.
    Source: GWRGeneralized.cpp:172-183 (predict), 210-294 (fitPoissonSerial), 494-566
    (fitBinomialSerial), 984-1006 (gwPredict, gwFit).
    The OpenMP versions 297-491 contain the same statements in a parallel loop (OmpModel.v).
    [z] and [w2] are the members myAdj and mWt2 left by PoissonWt or BinomialWt (GlmModel.v);
    [W1 i], [W2 i] the columns of mWtMat1, mWtMat2.  setHasRegressionData does not set
    mHasRegressionData (GWRGeneralized.h), so nRp = nDp.
    Exact scalars; [inv] is arma::inv, None its exception. *)
From mathcomp Require Import all_ssreflect all_algebra.
From Verif Require Import Outcome GwrModel GlmModel.
Set Implicit Arguments. Unset Strict Implicit. Unset Printing Implicit Defensive.
Import GRing.Theory.
Local Open Scope ring_scope.

Section Ggwr.
Variables (F : realFieldType) (n p : nat).
Variable inv : 'M[F]_p -> option 'M[F]_p.
Variable x : 'M[F]_(n, p).

(** "wi % mWt2" *)
Definition times (u v : 'cV[F]_n) : 'cV[F]_n := \col_j (u j ord0 * v j ord0).
(** "wi * mWt2" of two column vectors: a matrix product, which Armadillo refuses unless both
    have one row. *)
Definition matrix_product (u v : 'cV[F]_n) : option 'cV[F]_n :=
  if n == 1%N then Some (times u v) else None.

(** gwFit (995-1006): beta, ci, s_ri *)
Definition gwFit (z w : 'cV[F]_n) (i : 'I_n) : option ('cV[F]_p * 'M[F]_(p, n) * 'rV[F]_n) :=
  match inv (xtw x w *m x) with
  | None => None
  | Some b => Some (b *m (xtw x w *m z), b *m xtw x w, row i x *m (b *m xtw x w))
  end.
(** gwPredict (984-993) *)
Definition gwPredict (z w : 'cV[F]_n) : option 'cV[F]_p :=
  match inv (xtw x w *m x) with None => None | Some b => Some (b *m (xtw x w *m z)) end.

Record gfit := Gfit {
  gbetas : 'M[F]_(p, n);      (* local variable betas *)
  mbetas : 'M[F]_(p, n);      (* member mBetas *)
  gse2 : 'M[F]_(p, n);        (* mBetasSE, for Poisson before the square root *)
  tr0 : F; tr1 : F;           (* mShat *)
  correct : bool              (* isAllCorrect *)
}.
Definition failed (st : gfit) : gfit := Gfit (gbetas st) (mbetas st) (gse2 st) (tr0 st) (tr1 st) false.

Definition local_weights (fam : family) (hat : bool) (W1 W2 : 'I_n -> 'cV[F]_n) (i : 'I_n) : 'cV[F]_n :=
  match fam, hat with Binomial, true => W1 i | _, _ => W2 i end.

Definition ggwr_step (fam : family) (hat : bool) (W1 W2 : 'I_n -> 'cV[F]_n) (w2 z : 'cV[F]_n)
    (i : 'I_n) (st : gfit) : gfit :=
  let wi := local_weights fam hat W1 W2 i in
  if hat then
    match gwFit z (times wi w2) i with
    | None => failed st
    | Some (b, ci, s_ri) =>
        Gfit (set_col (gbetas st) i b) (mbetas st)
          (set_col (gse2 st) i (\col_a \sum_j ci a j * (w2 j ord0)^-1 * ci a j))
          (tr0 st + s_ri ord0 i) (tr1 st + \det (s_ri *m s_ri^T)) (correct st)
    end
  else
    match matrix_product wi w2 with
    | None => failed st
    | Some w =>
        match gwPredict z w with
        | None => failed st
        | Some b =>
            match fam with
            | Poisson => Gfit (set_col (gbetas st) i b) (mbetas st) (gse2 st) (tr0 st) (tr1 st) (correct st)
            | Binomial => Gfit (gbetas st) (set_col (mbetas st) i b) (gse2 st) (tr0 st) (tr1 st) (correct st)
            end
        end
    end.
Fixpoint ggwr_loop (step : 'I_n -> gfit -> gfit) (stop : 'I_n -> bool) (idx : seq 'I_n) (st : gfit) : gfit :=
  match idx with
  | [::] => st
  | i :: t => if stop i then st else ggwr_loop step stop t (step i st)
  end.
(** [m0]: member mBetas before; the members mBetasSE and mShat are zeroed by fit (53-57). *)
Definition ggwr_fit fam hat W1 W2 w2 z stop (m0 : 'M[F]_(p, n)) : outcome gfit :=
  let st := ggwr_loop (ggwr_step fam hat W1 W2 w2 z) stop (enum 'I_n) (Gfit 0 m0 0 0 0 true) in
  if correct st then Ok st else Throw.

(** predict (172-183), not cancelled.  [locations] only parameterises the distance; the
    weights are those of the last fit.  [score] is the call of mCalWtFunction. *)
Definition ggwr_predict (fam : family) (W1 W2 : 'I_n -> 'cV[F]_n) (score : outcome ('cV[F]_n * 'cV[F]_n))
    (m0 : 'M[F]_(p, n)) (m : nat) (locations : 'M[F]_(m, 2)) : outcome 'M[F]_(p, n) :=
  let* wz := score in
  let* st := ggwr_fit fam false W1 W2 wz.1 wz.2 (fun _ => false) m0 in
  Ok (gbetas st).
End Ggwr.
