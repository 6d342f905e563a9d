(** C79: choice of the ridge parameter. *)
From Coq Require Import Reals Lra List.
From Verif Require Import Outcome XReal RidgeModel RidgeProofs.
Import ListNotations.
Local Open Scope R_scope.

(** C79: with singular values s (largest first, m of them, none negative) and a threshold c > 1: if
    adjustment is on and the condition number exceeds c (c times the smallest is below the largest,
    which includes a smallest one of zero), lambda is a positive number that brings the condition
    number to exactly c; in every other case lambda is the user's. *)
Theorem C79_adjustment : forall m adjust lambda c s,
  length s = m -> (0 < m)%nat -> 1 < c ->
  0 <= nth (m - 1) s 0 <= nth 0 s 0 ->
  exists cn l, local_lambda m adjust lambda c (map XF s) = Ok (cn, l) /\
   (adjust = true /\ c * nth (m - 1) s 0 < nth 0 s 0 ->
      exists r, xval l = Some r /\ 0 < r /\ (nth 0 s 0 + r) / (nth (m - 1) s 0 + r) = c) /\
   (~ (adjust = true /\ c * nth (m - 1) s 0 < nth 0 s 0) -> l = XF lambda).
Proof. exact local_lambda_main. Qed.
Print Assumptions C79_adjustment.
Example C79_case : length [70; 2; 1] = 3%nat /\ (0 < 3)%nat /\ 1 < 30 /\
  0 <= nth (3 - 1) [70; 2; 1] 0 <= nth 0 [70; 2; 1] 0 /\ 30 * nth (3 - 1) [70; 2; 1] 0 < nth 0 [70; 2; 1] 0.
Proof. simpl. repeat split; auto with arith; lra. Qed.
