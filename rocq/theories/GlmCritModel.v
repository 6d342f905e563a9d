(** Model of the cross-validation criterion, the diagnostics and the regression-data setters of
    generalised GWR.
    Source: src/gwmodelpp/GWRGeneralized.cpp, include/gwmodelpp/GWRGeneralized.h. *)
From Coq Require Import Reals Bool List Arith ZArith.
From Verif Require Import Outcome XReal Sums GlmModel.
Import ListNotations.
Local Open Scope R_scope.

(** Calls for i = 0, 1, ..., n - 1; the first exception ends the loop. *)
Fixpoint each (n : nat) (f : nat -> outcome xvec) : outcome (nat -> xvec) :=
  match n with
  | O => Ok (fun _ _ => XN)
  | S k => let* g := each k f in let* a := f k in Ok (fun i => if Nat.eqb i k then a else g i)
  end.

Section Cv.
Variables (fam : family) (n p : nat).
Variable x : nat -> nat -> R.
Variable y : nat -> R.
(** gwPredict (984-993): weights and response to the coefficients; Throw when inv fails. *)
Variable solve : xvec -> xvec -> outcome xvec.
Variable llik : xvec -> xd.
Variable tol : R.

(** "x.row(i) * gwsi", and Fitted *)
Definition xdot (i : nat) (b : xvec) : xd := xsum p (fun a => xmul (XF (x i a)) (b a)).
(** Regressions at all points with the weight columns W (780-787, 866-873; 586-591) *)
Definition regress_with (W : nat -> xvec) (w2 z : xvec) : outcome xvec :=
  let* b := each n (fun i => solve (fun j => xmul (W i j) (w2 j)) z) in
  Ok (fun i => xdot i (b i)).

(** bandwidthSizeGGWRCriterionCVSerial 573-580: weight(d) with entry i set to zero.  [wt i j] is
    weight number j at point i.  Simplification: not cancelled. *)
Definition loo (wt : nat -> nat -> R) (i : nat) : xvec := fun j => if Nat.eqb j i then XF 0 else XF (wt i j).
(** 583-600: the values subtracted from mY *)
Definition cv_means (wt : nat -> nat -> R) (maxiter : nat) (adj0 : xvec) : outcome xvec :=
  let* r := irls_run fam y (regress_with (loo wt)) llik tol maxiter adj0 in
  let* e := regress_with (loo wt) (wt2 r) (yadj r) in
  Ok (means fam e).
(** 603-611; None stands for DBL_MAX *)
Definition cv_criterion (wt : nat -> nat -> R) (maxiter : nat) (adj0 : xvec) : outcome (option xd) :=
  let* m := cv_means wt maxiter adj0 in
  let cv := fun i => xsub (XF (y i)) (m i) in
  let res := xsum n (fun i => xmul (cv i) (cv i)) in
  Ok (if xisfinite res then Some res else None).
End Cv.

(** ** Diagnostics *)
(** fit 108-116 (Poisson, dev = mGwDev) and 144-152 (binomial, dev = gwDev): AIC, AICc, deviance,
    pseudo R2; nDp is converted to double. *)
Definition ggwr_diagnostic (n : nat) (trS dev nulldev : R) : xd * xd * R * xd :=
  let aic := dev + 2 * trS in
  (XF aic, xadd (XF aic) (xdiv (XF (2 * trS * (trS + 1))) (XF (INR n - trS - 1))), dev,
   xsub (XF 1) (xdiv (XF dev) (XF nulldev))).

(** CalGLMModel 193-204.  nDp and nVar are uword (64 bits, unsigned), so the quotient of 197 is
    one of unsigned integers; a division by zero is undefined. *)
Definition u64 (z : Z) : Z := (z mod 2 ^ 64)%Z.
Definition glm_aicc_term (nDp nVar : nat) : outcome Z :=
  let num := u64 (2 * Z.of_nat nVar * (Z.of_nat nVar + 1)) in
  let den := u64 (Z.of_nat nDp - Z.of_nat nVar - 1) in
  if (den =? 0)%Z then UB else Ok (num / den)%Z.
(** aic, aicc, null deviance, deviance, pseudo R2 *)
Definition glm_diagnostic (nDp nVar : nat) (nulldev dev : R) : outcome (R * R * R * R * xd) :=
  let aic := dev + IZR (u64 (2 * Z.of_nat nVar)) in
  let* t := glm_aicc_term nDp nVar in
  Ok (aic, aic + IZR t, nulldev, dev, xsub (XF 1) (xdiv (XF dev) (XF nulldev))).

(** ** Regression data (header 422, 429 and 515-531) *)
Record regdata := Regdata { mHas : bool; mData : list (list R) }.
Definition regdata0 : regdata := Regdata false [].
Inductive reg_op := SetHas (v : bool) | SetData (d : list (list R)).
(** setHasRegressionData assigns to mRegressionData: a matrix with the one entry 0 or 1. *)
Definition reg_step (s : regdata) (o : reg_op) : regdata :=
  match o with
  | SetHas v => Regdata (mHas s) [[if v then 1 else 0]]
  | SetData d => Regdata (mHas s) d
  end.
Definition reg_run (ops : list reg_op) : regdata := fold_left reg_step ops regdata0.
