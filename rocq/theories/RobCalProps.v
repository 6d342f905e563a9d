(** Theorems on robust calibrations of changed data (C182).  Vocabulary: GwrSpec.v.  [sq] stands for sqrt. *)
From mathcomp Require Import all_ssreflect all_algebra.
From Verif Require Import Outcome GwrModel GwrSpec RobFitModel RobCalModel RobCal.
Set Implicit Arguments. Unset Strict Implicit. Unset Printing Implicit Defensive.
Import GRing.Theory Num.Theory.
Local Open Scope ring_scope.

(** C182, response: multiplying the response by a constant other than zero and adding a combination of the regressors multiplies the
    coefficients of every location and adds the combination; the masks of all passes are the same, and a calibration that fails
    still fails.  Both calibrations. *)
Theorem C182_response : forall (F : realFieldType) n p (inv : 'M[F]_p -> option 'M[F]_p) (sq : F -> F), inverse_contract inv ->
  forall filtered (x : 'M[F]_(n, p)) y W c (g : 'cV[F]_p), c != 0 -> (forall a, 0 <= a -> sq (c ^+ 2 * a) = `|c| * sq a) ->
  match calibration inv sq filtered x y W with
  | Ok (s, masks) => exists s', calibration inv sq filtered x (c *: y + x *m g) W = Ok (s', masks) /\
      forall i, col i (betas s') = c *: col i (betas s) + g
  | Throw => calibration inv sq filtered x (c *: y + x *m g) W = Throw
  | UB => False
  end.
Proof. exact response_main. Qed.
Print Assumptions C182_response.

(** Its hypothesis on [sq] holds of every square root, whatever the constant. *)
Theorem C182_roots : forall (F : realFieldType) (sq : F -> F) c,
  (forall a, 0 <= a -> 0 <= sq a /\ sq a ^+ 2 = a) -> forall a, 0 <= a -> sq (c ^+ 2 * a) = `|c| * sq a.
Proof. exact root_scales. Qed.
Print Assumptions C182_roots.

(** C182, regressors: recombining the regressors by an invertible matrix applies the inverse of that matrix to the coefficients and
    keeps the masks. *)
Theorem C182_regressors : forall (F : realFieldType) n p (sq : F -> F) filtered (x : 'M[F]_(n, p)) y W (A : 'M[F]_p), A \in unitmx ->
  match calibration (@exact_inv F p) sq filtered x y W with
  | Ok (s, masks) => exists s', calibration (@exact_inv F p) sq filtered (x *m A) y W = Ok (s', masks) /\ betas s' = invmx A *m betas s
  | Throw => calibration (@exact_inv F p) sq filtered (x *m A) y W = Throw
  | UB => False
  end.
Proof. exact recombined_main. Qed.
Print Assumptions C182_regressors.

(** C182, clean data: if no residual of the first regression exceeds two root mean squares, the iterative calibration makes one more
    regression and returns the first; *)
Theorem C182_clean_iterative : forall (F : realFieldType) n p (inv : 'M[F]_p -> option 'M[F]_p) (sq : F -> F)
    (x : 'M[F]_(n, p)) (y : 'cV[F]_n) W s,
  robust_fit inv x y W (const_mx 1) (fun _ => false) = Ok (s, false) ->
  let r i := y i ord0 - \sum_a x i a * betas s a i in
  let mse := (\sum_i r i ^+ 2) / n%:R in
  0 < mse -> (forall i, `|r i / sq mse| <= 2%:R) ->
  calibration inv sq false x y W = Ok (s, [:: const_mx 1; const_mx 1]).
Proof. exact clean_second. Qed.
Print Assumptions C182_clean_iterative.
(** if no studentised residual exceeds three, so does the filtered one. *)
Theorem C182_clean_filtered : forall (F : realFieldType) n p (inv : 'M[F]_p -> option 'M[F]_p) (sq : F -> F)
    (x : 'M[F]_(n, p)) (y : 'cV[F]_n) W s,
  robust_fit inv x y W (const_mx 1) (fun _ => false) = Ok (s, false) ->
  let r i := y i ord0 - \sum_a x i a * betas s a i in
  let sigma2 := (\sum_i r i ^+ 2) / (n%:R - 2%:R * shat0 s + shat1 s) in
  (forall i, 0 < sigma2 * qdiag s i ord0 /\ `|r i / sq (sigma2 * qdiag s i ord0)| <= 3%:R) ->
  calibration inv sq true x y W = Ok (s, [:: const_mx 1; const_mx 1]).
Proof. exact clean_first. Qed.
Print Assumptions C182_clean_filtered.

(** C182, outliers: an observation whose studentised residual exceeds three is left out of the second regression, the one that is
    returned. *)
Theorem C182_outlier : forall (F : realFieldType) n p (inv : 'M[F]_p -> option 'M[F]_p) (sq : F -> F)
    (x : 'M[F]_(n, p)) (y : 'cV[F]_n) W s s' masks k,
  robust_fit inv x y W (const_mx 1) (fun _ => false) = Ok (s, false) ->
  let r i := y i ord0 - \sum_a x i a * betas s a i in
  let sigma2 := (\sum_i r i ^+ 2) / (n%:R - 2%:R * shat0 s + shat1 s) in
  0 < sigma2 * qdiag s k ord0 -> 3%:R < `|r k / sq (sigma2 * qdiag s k ord0)| ->
  calibration inv sq true x y W = Ok (s', masks) ->
  exists m, masks = [:: const_mx 1; m] /\ m k ord0 = 0 /\ robust_fit inv x y W m (fun _ => false) = Ok (s', false).
Proof. exact dropped_first. Qed.
Print Assumptions C182_outlier.

(** C182, passes: the iterative calibration makes between two and 21 regressions and returns the last; the weights of the second
    are 1 up to two root mean squares of the first residuals, 0 from three on, and fall as a bisquare in between. *)
Theorem C182_passes : forall (F : realFieldType) n p (inv : 'M[F]_p -> option 'M[F]_p) (sq : F -> F)
    (x : 'M[F]_(n, p)) (y : 'cV[F]_n) W s s' masks,
  robust_fit inv x y W (const_mx 1) (fun _ => false) = Ok (s, false) ->
  let r i := y i ord0 - \sum_a x i a * betas s a i in
  let mse := (\sum_i r i ^+ 2) / n%:R in
  0 < mse -> calibration inv sq false x y W = Ok (s', masks) ->
  exists m rest, [/\ masks = [:: const_mx 1, m & rest], (size masks <= 21)%N,
    robust_fit inv x y W (last m rest) (fun _ => false) = Ok (s', false)
    & forall i, let t := `|r i / sq mse| in
      [/\ t <= 2%:R -> m i ord0 = 1, 2%:R < t -> t < 3%:R -> m i ord0 = (1 - (t - 2%:R) ^+ 2) ^+ 2 & 3%:R <= t -> m i ord0 = 0]].
Proof. exact iterative_main. Qed.
Print Assumptions C182_passes.

(** The hypotheses are met: of seventeen observations 17, 0, ..., 0 the first has the studentised residual 16 / sqrt 16 (with a function
    that is 4 at 16), and the calibration succeeds; *)
Example C182_outlier_case : quarter 16%:R = 4%:R /\ exists s s' masks,
  [/\ robust_fit (@exact_inv _ 1) (const_mx 1) far (fun _ => const_mx 1) (const_mx 1) (fun _ => false) = Ok (s, false),
      (\sum_i (far i ord0 - \sum_a (const_mx 1 : 'M_(17, 1)) i a * betas s a i) ^+ 2) / (17%:R - 2%:R * shat0 s + shat1 s) * qdiag s ord0 ord0 = 16%:R,
      far ord0 ord0 - \sum_a (const_mx 1 : 'M_(17, 1)) ord0 a * betas s a ord0 = 16%:R
    & calibration (@exact_inv _ 1) quarter true (const_mx 1) far (fun _ => const_mx 1) = Ok (s', masks)].
Proof. exact (conj quarter16 far_case). Qed.
(** of the observations 1 and -1 neither is an outlier (roots are taken of 1 only; the iterative calibration makes two passes). *)
Example C182_clean_case : exists s,
  [/\ robust_fit (@exact_inv _ 1) (const_mx 1) pair_y (fun _ => const_mx 1) (const_mx 1) (fun _ => false) = Ok (s, false),
      (\sum_i (pair_y i ord0 - \sum_a (const_mx 1 : 'M_(2, 1)) i a * betas s a i) ^+ 2) / 2%:R = 1,
      forall i, (\sum_i (pair_y i ord0 - \sum_a (const_mx 1 : 'M_(2, 1)) i a * betas s a i) ^+ 2) / (2%:R - 2%:R * shat0 s + shat1 s) * qdiag s i ord0 = 1
    & forall i, `|pair_y i ord0 - \sum_a (const_mx 1 : 'M_(2, 1)) i a * betas s a i| = 1].
Proof. exact pair_case. Qed.
