(** Theorems on the masked regressions of robust GWR (C69, C93).  Vocabulary: GwrSpec.v. *)
From mathcomp Require Import all_ssreflect all_algebra.
From Verif Require Import Outcome GwrModel GwrSpec GwrProofs RobFitModel RobFitProofs.
Set Implicit Arguments. Unset Strict Implicit. Unset Printing Implicit Defensive.
Import GRing.Theory Num.Theory.
Local Open Scope ring_scope.

(** C69: a regression with every observation masked fails, whatever the data and the
    inverse (the hypothesis of C69_perfect_fit_refuted). *)
Theorem C69_zero_mask_throws : forall (F : realFieldType) n p (inv : 'M[F]_p -> option 'M[F]_p)
    (x : 'M[F]_(n, p)) y (W : 'I_n -> 'cV[F]_n),
  inverse_contract inv -> (0 < n)%N -> (0 < p)%N -> robust_fit inv x y W 0 (fun _ => false) = Throw.
Proof. exact zero_mask_main. Qed.
Print Assumptions C69_zero_mask_throws.

(** C93: an observation of mask 0 has no influence on the coefficients: neither its response nor
    its regressors. *)
Theorem C93_no_influence : forall (F : realFieldType) n p (inv : 'M[F]_p -> option 'M[F]_p)
    (x x' : 'M[F]_(n, p)) (y y' : 'cV[F]_n) (W : 'I_n -> 'cV[F]_n) (mask : 'cV[F]_n) s s',
  (forall j, mask j ord0 != 0 -> row j x = row j x' /\ y j ord0 = y' j ord0) ->
  robust_fit inv x y W mask (fun _ => false) = Ok (s, false) ->
  robust_fit inv x' y' W mask (fun _ => false) = Ok (s', false) ->
  betas s = betas s'.
Proof. exact no_influence_main. Qed.
Print Assumptions C93_no_influence.
Example C93_case : forall v, exists s,
  robust_fit (@exact_inv _ 1) rx (ry v) (fun _ => const_mx 1) rmask (fun _ => false) = Ok (s, false).
Proof. exact ex_robust. Qed.
