(** C173: the effective number of parameters of basic GWR (mSHat of GWRBasic.cpp:246-289; the diagnostics use
    shat(0) and 2 * shat(0) - shat(1), GWRBasic.cpp:47-60). *)
From mathcomp Require Import all_ssreflect all_algebra.
From Verif Require Import Outcome GwrModel GwrSpec GwrProofs LevMain LevCases.
Set Implicit Arguments. Unset Strict Implicit. Unset Printing Implicit Defensive.
Import Order.TTheory GRing.Theory Num.Theory.
Local Open Scope ring_scope.

(** Weights between 0 and 1, 1 at the location itself: the trace is at least the number of columns, the effective number of parameters
    lies between the trace and the number of observations, and equals the latter only if the fit passes through all of them.  So the
    effective degrees of freedom are never negative. *)
Theorem C173_bounds : forall (F : realFieldType) n p (inv : 'M[F]_p -> option 'M[F]_p) storeS storeC
    (x : 'M[F]_(n, p)) y (W : 'I_n -> 'cV[F]_n) s,
  inverse_contract inv -> (0 < n)%N -> (forall i j, 0 <= W i j ord0 <= 1) -> (forall i, W i i ord0 = 1) ->
  fit_core inv storeS storeC 0 n x y W (fun _ => false) = Ok (s, false) ->
  [/\ p%:R <= shat0 s, shat0 s <= 2%:R * shat0 s - shat1 s, 2%:R * shat0 s - shat1 s <= n%:R &
      2%:R * shat0 s - shat1 s = n%:R -> forall i, \sum_a x i a * betas s a i = y i ord0].
Proof. exact (fun F n p inv storeS storeC x y W s c => @bounds_main F n p inv c storeS storeC x y W s). Qed.
Print Assumptions C173_bounds.
(** A square, neighbouring corners with weight 1/2. *)
Example C173_case : [/\ forall i j, 0 <= corner (2%:R^-1 : rat) i j ord0 <= 1, forall i, corner (2%:R^-1 : rat) i i ord0 = 1 &
  exists s, fit_core (@exact_inv _ 1) true true 0 4 (one_x _ 4) (\col_j j%:R) (corner (2%:R^-1 : rat)) (fun _ => false) = Ok (s, false) /\
    shat0 s = 16%:R / 9%:R].
Proof. exact corner_case. Qed.

(** Equal weights: the number of columns. *)
Theorem C173_uniform : forall (F : realFieldType) n p (inv : 'M[F]_p -> option 'M[F]_p) storeS storeC
    (x : 'M[F]_(n, p)) y (W : 'I_n -> 'cV[F]_n) s,
  inverse_contract inv -> (0 < n)%N -> (forall i j, W i j ord0 = 1) ->
  fit_core inv storeS storeC 0 n x y W (fun _ => false) = Ok (s, false) -> shat0 s = p%:R /\ shat1 s = p%:R.
Proof. exact (fun F n p inv storeS storeC x y W s c => @uniform_main F n p inv c storeS storeC x y W s). Qed.
Print Assumptions C173_uniform.
Example C173_uniform_case : exists s,
  fit_core (@exact_inv _ 1) true true 0 4 (one_x _ 4) (\col_j j%:R) (fun _ => const_mx (1 : rat)) (fun _ => false) = Ok (s, false).
Proof. exact uniform_case. Qed.

(** The model with a constant only, used by C173_unbounded_refuted: coefficients and trace. *)
Theorem C173_local_means : forall (F : realFieldType) n storeS storeC (y : 'cV[F]_n) (W : 'I_n -> 'cV[F]_n),
  (forall i, \sum_j W i j ord0 != 0) ->
  exists s, [/\ fit_core (@exact_inv F 1) storeS storeC 0 n (const_mx 1) y W (fun _ => false) = Ok (s, false),
    shat0 s = \sum_i W i i ord0 / \sum_j W i j ord0 &
    forall i, betas s ord0 i = (\sum_j W i j ord0 * y j ord0) / \sum_j W i j ord0].
Proof. exact means_main. Qed.
Print Assumptions C173_local_means.
Example C173_means_case : forall i, \sum_j corner (2%:R^-1 : rat) i j ord0 != 0.
Proof. exact corner_nonzero. Qed.
