(** Model of the standard errors reported by multiscale GWR.
    Source: GWRMultiscale.cpp:141-142 ("mat betas = gwr.fit(); mBetasSE = gwr.betasSE();"), 276
    ("mBetasTV = mBetas / mBetasSE", with the hat matrix only); GWRBasic.cpp:235-244 (fitBase).
    mBetasSE is not written anywhere else; the t values are the quotients of the final coefficients and these.
    Squares are modelled instead of the square roots: the scalars are exact.  A quotient with denominator
    zero (infinite or NaN in the code) is [None]. *)
From mathcomp Require Import all_ssreflect all_algebra.
From Verif Require Import Outcome GwrModel MsModel.
Set Implicit Arguments. Unset Strict Implicit. Unset Printing Implicit Defensive.
Import GRing.Theory Num.Theory.
Local Open Scope ring_scope.

Section Se.
Variables (F : realFieldType) (n p : nat).
Variables (inv1 : 'M[F]_1 -> option 'M[F]_1) (inv : 'M[F]_p -> option 'M[F]_p).

(** fitBase: "sigmaHat = RSS / (nDp - 2 * trS + trStS); mBetasSE = sqrt(sigmaHat * mBetasSE)"; squared, one row
    per observation. *)
Definition gwr_se2 (x : 'M[F]_(n, p)) (y : 'cV[F]_n) (s : fitted_model F n p) : option 'M[F]_(n, p) :=
  let edf := n%:R - 2%:R * shat0 s + shat1 s in
  if edf == 0 then None
  else Some (\matrix_(i, a) (RSS x y (betas s) / edf * se2 s a i)).

(** fit 96-142 and on.  The regression of the GWRBasic object is the one [ms_fit] starts from. *)
Definition ms_se2 (hat ic : bool) (flags : 'I_p -> bool) (x0 : 'M[F]_(n, p)) (y : 'cV[F]_n) (W0 : 'I_n -> 'cV[F]_n)
  : outcome (option 'M[F]_(n, p)) :=
  let x := centre ic flags x0 in
  match fit_core inv hat hat 0 n x y W0 (fun _ => false) with
  | Ok (s, _) => Ok (gwr_se2 x y s)
  | Throw => Throw
  | UB => UB
  end.
Definition ms_report hat ic flags x0 y W0 init bw0 select0 wt select threshold retry
    stop_iter stop_var stop_sel stop_in ctype cthreshold root maxiter
  : outcome (ms F n p * option 'M[F]_(n, p)) :=
  let* r := ms_fit inv1 inv hat ic flags x0 y W0 init bw0 select0 wt select threshold retry
              stop_iter stop_var stop_sel stop_in ctype cthreshold root maxiter in
  let* v := ms_se2 hat ic flags x0 y W0 in
  Ok (r.1, v).
End Se.
