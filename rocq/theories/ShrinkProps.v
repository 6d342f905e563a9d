(** C180: how the local ridge regression depends on its parameter, on the units and on the origin of the response.

    Full statement: a larger ridge parameter never makes the scaled squares of the coefficients larger nor the residuals smaller;
    the coefficients of the regressors vanish in the limit; a change of the unit of a regressor changes its coefficient only; adding
    a constant to the response adds it to the fitted values.
    The last part is false: ridgelm penalises the intercept like the other coefficients.

    src/gwmodelpp/GWRLocalCollinearity.cpp:140-171 (ridgelm), 330-392 (fitSerial). *)
From mathcomp Require Import all_ssreflect all_algebra.
From Verif Require Import Outcome GwrModel GwrSpec GwrCases RidgeFitModel RidgeFitSpec RidgeFitCases Shrink ShrinkCase.
Set Implicit Arguments. Unset Strict Implicit. Unset Printing Implicit Defensive.
Import GRing.Theory Num.Theory.
Local Open Scope ring_scope.

(** [lam1 i <= lam2 i]: the local parameters of two fits of the same data. *)
Theorem C180_monotone : forall (F : realFieldType) (n p : nat) (inv : 'M[F]_p -> option 'M[F]_p) (sq : F -> F), inverse_contract inv ->
  forall (x : 'M[F]_(n, p)) (y : 'cV[F]_n) (W : 'I_n -> 'cV[F]_n) lam1 lam2 t1 t2 s1 s2 r1 r2,
  (1 < n)%N -> (forall i, exact_roots sq x (W i)) -> (forall i, 0 <= lam1 i <= lam2 i) ->
  lc_fit inv sq t1 x y W lam1 (fun _ => false) = Ok (s1, r1) -> lc_fit inv sq t2 x y W lam2 (fun _ => false) = Ok (s2, r2) ->
  forall i b1 b2, lc_betas s1 i = Some b1 -> lc_betas s2 i = Some b2 ->
  \sum_a penalty_scale x a * b2 a ord0 ^+ 2 <= \sum_a penalty_scale x a * b1 a ord0 ^+ 2 /\ wrss x y (W i) b1 <= wrss x y (W i) b2.
Proof. exact fit_exchange. Qed.
Print Assumptions C180_monotone.

(** Every coefficient is at most of the order of 1 / sqrt lambda, the intercept included. *)
Theorem C180_limit : forall (F : realFieldType) (n p : nat) (inv : 'M[F]_p -> option 'M[F]_p) (sq : F -> F), inverse_contract inv ->
  forall (x : 'M[F]_(n, p)) (y : 'cV[F]_n) (W : 'I_n -> 'cV[F]_n) lam t s r,
  (1 < n)%N -> (forall i, exact_roots sq x (W i)) -> (forall i, 0 <= lam i) ->
  lc_fit inv sq t x y W lam (fun _ => false) = Ok (s, r) -> forall i b, lc_betas s i = Some b ->
  forall a, lam i * (penalty_scale x a * b a ord0 ^+ 2) <= \sum_j W i j ord0 * y j ord0 ^+ 2.
Proof. exact fit_bound. Qed.
Print Assumptions C180_limit.
(** Three observations, with the parameters 1 and 2. *)
Example C180_case : (forall i, exact_roots id rx (rW i)) /\ exists s1 s2,
  lc_fit (@exact_inv _ 2) id (0, 0) rx ry rW (fun _ => 1) (fun _ => false) = Ok (s1, false) /\
  lc_fit (@exact_inv _ 2) id (0, 0) rx ry rW (fun _ => 2%:R) (fun _ => false) = Ok (s2, false) /\
  forall i, exists b1 b2, lc_betas s1 i = Some b1 /\ lc_betas s2 i = Some b2.
Proof. exact shrink_case. Qed.

(** Column [a] multiplied by [c a], the intercept left alone: the coefficient is divided by [c a], for the same parameters. *)
Theorem C180_units : forall (F : realFieldType) (n p : nat) (inv : 'M[F]_p -> option 'M[F]_p) (sq : F -> F), inverse_contract inv ->
  forall (x x' : 'M[F]_(n, p)) (y : 'cV[F]_n) (W : 'I_n -> 'cV[F]_n) lam (c : 'I_p -> F) t t' s s' r r', (1 < n)%N ->
  (forall i, exact_roots sq x (W i)) -> (forall i, exact_roots sq x' (W i)) -> (forall i, 0 <= lam i) ->
  (forall a, c a != 0) -> (forall a, nat_of_ord a = 0%N -> c a = 1) -> (forall j a, x' j a = x j a * c a) ->
  lc_fit inv sq t x y W lam (fun _ => false) = Ok (s, r) -> lc_fit inv sq t' x' y W lam (fun _ => false) = Ok (s', r') ->
  forall i b b', lc_betas s i = Some b -> lc_betas s' i = Some b' -> forall a, b' a ord0 = b a ord0 / c a.
Proof. exact fit_units. Qed.
Print Assumptions C180_units.
(** The regressor of the three observations with the other sign. *)
Example C180_units_case : (forall i, exact_roots id rx2 (rW i)) /\
  (forall j a, rx2 j a = rx j a * (if nat_of_ord a == 0%N then 1 else - 1)) /\ exists s,
  lc_fit (@exact_inv _ 2) id (0, 0) rx2 ry rW (fun _ => 1) (fun _ => false) = Ok (s, false).
Proof. exact units_case. Qed.

(** One more in every response raises all fitted values by less than one, for every positive parameter. *)
Theorem C180_shift_refuted : (forall j, ry1 j ord0 = ry j ord0 + 1) /\ forall l : rat, 0 < l -> exists s s',
  [/\ lc_fit (@exact_inv _ 2) id (0, 0) rx ry rW (fun _ => l) (fun _ => false) = Ok (s, false),
      lc_fit (@exact_inv _ 2) id (0, 0) rx ry1 rW (fun _ => l) (fun _ => false) = Ok (s', false) &
      forall i, exists b b', [/\ lc_betas s i = Some b, lc_betas s' i = Some b' & forall j, (rx *m b') j ord0 < (rx *m b) j ord0 + 1]].
Proof. exact (conj shift_ry r_shift). Qed.
Print Assumptions C180_shift_refuted.
