(** What GWRRobust::fit reports after the calibration (GWRRobust.cpp:84-88, CalcDiagnostic 15-28): the last masked regression gives the
    coefficients and the traces; the residual sum of squares is taken over all observations.  Over exact scalars; RSS, ENP, EDF and
    the squares of the standard errors only (AIC, AICc and R2 are functions of these and of the response, DiagModel.v).
    A division by a zero EDF is left to the totalised division; theorems state that it is positive where they need it. *)
From mathcomp Require Import all_ssreflect all_algebra.
From Verif Require Import Outcome GwrModel.
Set Implicit Arguments. Unset Strict Implicit. Unset Printing Implicit Defensive.
Import GRing.Theory.
Local Open Scope ring_scope.

Section D.
Variables (F : realFieldType) (n p : nat).
Record robust_report := Report { rp_rss : F; rp_enp : F; rp_edf : F; rp_sigma2 : F; rp_se2 : 'M[F]_(p, n) }.
(** 17-18, 22-23; 87; 88 squared. *)
Definition robust_diagnostic (x : 'M[F]_(n, p)) (y : 'cV[F]_n) (s : fitted_model F n p) : robust_report :=
  let rss := RSS x y (betas s) in
  let edf := n%:R - 2%:R * shat0 s + shat1 s in
  let sigma2 := rss / edf in
  Report rss (2%:R * shat0 s - shat1 s) edf sigma2 (sigma2 *: se2 s).
End D.
