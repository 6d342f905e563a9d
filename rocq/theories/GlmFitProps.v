(** Property theorem C67: the final regressions of generalised GWR and predict().
    Vocabulary: GwrSpec.v.  [z], [w2]: adjusted response and working weights. *)
From mathcomp Require Import all_ssreflect all_algebra.
From Verif Require Import Outcome GwrModel GwrSpec GwrProofs GwrCases GlmModel GlmFitModel GlmFitProofs.
Set Implicit Arguments. Unset Strict Implicit. Unset Printing Implicit Defensive.
Import GRing.Theory Num.Theory.
Local Open Scope ring_scope.

(** C67 for fit() with a hat matrix: every location gets the weighted least squares fit of
    the adjusted response with weights w_ij * w2_j; fitted linear predictors are S z and the
    traces are those of S and S'S.
    Missing from the full statement: predict(), refuted below. *)
Theorem C67_fit_partial : forall (F : realFieldType) n p (inv : 'M[F]_p -> option 'M[F]_p) (x : 'M[F]_(n, p))
    fam (W : 'I_n -> 'cV[F]_n) w2 z m0 st,
  inverse_contract inv -> ggwr_fit inv x fam true W W w2 z (fun _ => false) m0 = Ok st ->
  (forall i, (forall j, 0 <= W i j ord0 * w2 j ord0) ->
     only_minimiser x z (\col_j (W i j ord0 * w2 j ord0)) (col i (gbetas st))) /\
  exists S : 'M[F]_n, [/\ (forall i, \sum_a x i a * gbetas st a i = (S *m z) i ord0),
    tr0 st = \tr S & tr1 st = \tr (S^T *m S)].
Proof. exact C67_fit_same. Qed.
Print Assumptions C67_fit_partial.
(** The squared standard errors are the variances of the linear estimator C z when the
    variance of z_j is 1 / w2_j. *)
Theorem C67_standard_errors : forall (F : realFieldType) n p (inv : 'M[F]_p -> option 'M[F]_p) (x : 'M[F]_(n, p))
    fam (W1 W2 : 'I_n -> 'cV[F]_n) w2 z m0 st,
  inverse_contract inv -> ggwr_fit inv x fam true W1 W2 w2 z (fun _ => false) m0 = Ok st -> forall i,
  exists C : 'M[F]_(p, n), [/\ col i (gbetas st) = C *m z, C *m x = 1%:M &
    forall a, gse2 st a i = (C *m diag_mx (\row_j (w2 j ord0)^-1) *m C^T) a a].
Proof. exact (fun F n p inv x fam W1 W2 w2 z m0 st c => @C67_se_main F n p inv x fam W1 W2 w2 z c m0 st). Qed.
Print Assumptions C67_standard_errors.
(** It throws exactly when the normal matrix of some location is refused. *)
Theorem C67_fails : forall (F : realFieldType) n p (inv : 'M[F]_p -> option 'M[F]_p) (x : 'M[F]_(n, p))
    fam (W : 'I_n -> 'cV[F]_n) w2 z m0,
  ggwr_fit inv x fam true W W w2 z (fun _ => false) m0 = Throw <->
  exists i, inv (x^T *m diag_mx (\row_j (W i j ord0 * w2 j ord0)) *m x) = None.
Proof. exact C67_fails_same. Qed.
Print Assumptions C67_fails.
Example C67_case : inverse_contract (@exact_inv [realFieldType of rat] 1) /\
  (exists st, ggwr_fit (@exact_inv _ 1) ex_x Poisson true ex_W ex_W ex_w2 ex_y (fun _ => false) 0 = Ok st) /\
  ggwr_fit (@exact_inv _ 1) ex_x Poisson true (fun _ => 0) (fun _ => 0) ex_w2 ex_y (fun _ => false) 0 = Throw.
Proof. exact (conj (@exact_inv_contract _ _) (conj (ex_gfit Poisson 0) (ex_gfit_fails 0))). Qed.

(** C67 refuted for predict(): with more than one observation it throws, whatever the data,
    the locations and the answers of the inverse. *)
Theorem C67_predict_refuted : forall (F : realFieldType) n p (inv : 'M[F]_p -> option 'M[F]_p) (x : 'M[F]_(n, p))
    fam W1 W2 (score : outcome ('cV[F]_n * 'cV[F]_n)) m0 m (locations : 'M[F]_(m, 2)),
  (1 < n)%N -> score <> UB -> ggwr_predict inv x fam W1 W2 score m0 locations = Throw.
Proof. exact C67_predict_main. Qed.
Print Assumptions C67_predict_refuted.
(** With the binomial family whatever it returns is zero. *)
Theorem C67_predict_binomial_refuted : forall (F : realFieldType) n p (inv : 'M[F]_p -> option 'M[F]_p) (x : 'M[F]_(n, p))
    W1 W2 (score : outcome ('cV[F]_n * 'cV[F]_n)) m0 m (locations : 'M[F]_(m, 2)) b,
  ggwr_predict inv x Binomial W1 W2 score m0 locations = Ok b -> b = 0.
Proof. exact C67_binomial_main. Qed.
Print Assumptions C67_predict_binomial_refuted.
Example C67_predict_case : exists b,
  ggwr_predict (@exact_inv [realFieldType of rat] 1) (1 : 'M_1) Binomial (fun _ => 1) (fun _ => 1) (Ok (1, 1)) 0 (0 : 'M_(1, 2)) = Ok b.
Proof. exact ex_predict. Qed.
