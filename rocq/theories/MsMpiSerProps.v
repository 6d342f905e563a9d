(** C166: what one process of multiscale regression computes, and with C166_agrees_partial and
    C166_survivors all processes together. *)
From Coq Require Import Reals Bool List Arith.
From Verif Require Import XReal KernelModel GoldModel MsCritModel.
From Verif Require Import MsMpiModel MsMpiSpec MsMpiCases MsMpiSerSpec MsMpiSerial.
Local Open Scope R_scope.

(** A run that is not cancelled is a sequence of at most [maxiter] iterations over coefficients B,
    bandwidths W, types T of bandwidths and counters C.  It begins with the given coefficients and
    bandwidths, where unspecified bandwidths are searched for the response itself.  In every
    iteration every variable is treated once, with the partial residuals in which the variables before it
    are already new.  All but the last iteration leave the criterion of convergence above
    its threshold; if iterations remain, the last one does not. *)
Theorem C166_backfitting : forall n nvar (x : nat -> nat -> R) (y : nat -> R) hat appr lower upper threshold retry maxiter ctype cthreshold loo loc b0 w0 i0 ans,
  program_base n nvar x y hat appr lower upper threshold retry maxiter ctype cthreshold loo loc b0 w0 i0 (fun _ => false) = Ret ans ->
  exists K (B : nat -> nat -> nat -> R) (W : nat -> nat -> weight) (T : nat -> nat -> init_type) (C : nat -> nat -> nat),
    (K <= maxiter)%nat /\ ans = Fitted (B K) (W K) /\ B 0%nat = b0 /\
    (forall v, (v < nvar)%nat -> T 0%nat v = i0 v /\ C 0%nat v = 0%nat /\
       (i0 v <> INull -> W 0%nat v = w0 v) /\
       (i0 v = INull -> searched n x appr lower upper loo loc v y (w0 v) (W 0%nat v))) /\
    (forall j v, (j < K)%nat -> (v < nvar)%nat ->
       one_variable n nvar x y appr lower upper threshold retry loo loc v (B j) (B (S j)) (W j v) (W (S j) v) (T j v) (T (S j) v) (C j v) (C (S j) v)) /\
    (forall j, (S j < K)%nat -> not_converged ctype cthreshold (residual_ss n nvar x y (B j)) (residual_ss n nvar x y (B (S j)))) /\
    ((K < maxiter)%nat -> match K with
                          | O => DBL_MAX <= cthreshold
                          | S j => ~ not_converged ctype cthreshold (residual_ss n nvar x y (B j)) (residual_ss n nvar x y (B K))
                          end) /\
    ((0 < K)%nat -> cthreshold < DBL_MAX).
Proof. exact (fun n nvar x y hat appr lower upper threshold retry maxiter ctype cthreshold loo loc => backfitting_main n nvar x y hat appr lower upper threshold retry ctype cthreshold loo loc maxiter). Qed.
Print Assumptions C166_backfitting.

(** Non-vacuity: two observations, one variable, a bandwidth that is selected. *)
Example C166_backfitting_nonvacuous : exists bt ws,
  program_base 2 1 ones (level 1) false (fun _ => CV) zero1 one1 zero1 2 1 CVR 0
    (surviving 2 (loo_of inv_pos 2 ones even)) (surviving2 2 (loc_of inv_pos 2 ones even)) zero2 coarse (fun _ => INull) (fun _ => false) = Ret (Fitted bt ws) /\
  forall i, (i < 2)%nat -> bt 0%nat i = 1.
Proof. exact case_selected. Qed.
