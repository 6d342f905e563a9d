(** Scalable GWR, parameter optimisation and criterion: /repo/src/gwmodelpp/GWRScalable.cpp.
    The GSL minimiser is that of GwdrModel.v ([gsl]); minimizer->fval is the function at
    minimizer->x (gsl_multimin_fminimizer_nmsimplex). *)
From Coq Require Import Reals Bool List ZArith.
From Verif Require Import Outcome GwdrModel.
Import ListNotations.
Local Open Scope R_scope.

(** 229-247: number of calls of iterate; None if [fuel] does not suffice. [g_stopped g k] is the
    telegram asked before call k. *)
Fixpoint sca_loop (fuel : nat) (g : gsl) (maxIter iter : nat) : option nat :=
  match fuel with
  | O => None
  | S f =>
      let k := S iter in
      if g_stopped g k then Some iter
      else if negb (Z.eqb (g_status g k) 0) then Some k
      else if Z.eqb (g_test g k) (-2) && Nat.ltb k maxIter then sca_loop f g maxIter k
      else Some k
  end.

(** optimize (215-254): the returned value (None: DBL_MAX, the setup failed) and the parameters
    (b_tilde, alpha). *)
Definition sca_optimize (f : list R -> R) (g : gsl) (maxIter : nat) (start : list R) : option (option R * list R) :=
  if Z.eqb (g_status g 0) 0 then
    match sca_loop (S maxIter) g maxIter 0 with
    | Some k => Some (Some (f (g_x g k)), g_x g k)
    | None => None
    end
  else Some (None, start).

(** 471-475 (= 304-308): the bandwidth of the object after fit or predict. *)
Definition bandwidth_after (bw : R) (n : nat) : R :=
  if Z.leb (Z.of_nat n) (Int_part bw) then INR n - 1 else bw.

(** AICvalue 123-126: the unsigned subtraction n - 2 wraps. *)
Definition sca_criterion (n : nat) (sse trS : R) : R :=
  let sig := sqrt (sse / INR n) in
  2 * INR n * ln sig + INR n * ln (2 * PI)
  + INR n * (INR n + trS) / (IZR ((Z.of_nat n - 2) mod 2 ^ 64) - trS).
(** CalcDiagnostic 129-135 (AICc) *)
Definition sca_aicc (n : nat) (rss trS : R) : R :=
  INR n * ln (rss / INR n) + INR n * ln (2 * PI) + INR n * ((INR n + trS) / (INR n - 2 - trS)).
