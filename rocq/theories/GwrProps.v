(** Property theorems C43-C49, C51, C52, C86, C87, C120: the local weighted regressions of basic GWR.
    Vocabulary: GwrSpec.v.  Scalars are in any ordered field; [inv] is any function whose
    answers are left inverses (arma::inv_sympd); [W i] are the weights at location i. *)
From mathcomp Require Import all_ssreflect all_algebra.
From Verif Require Import Outcome GwrModel GwrSpec GwrProofs GwrCases.
Set Implicit Arguments. Unset Strict Implicit. Unset Printing Implicit Defensive.
Import GRing.Theory Num.Theory.
Local Open Scope ring_scope.

(** C43: the coefficients of location i minimise the weighted residual sum of squares
    over all coefficient vectors, and no other vector attains the minimum. *)
Theorem C43_weighted_least_squares : forall (F : realFieldType) n p (inv : 'M[F]_p -> option 'M[F]_p)
    storeS storeC lo hi (x : 'M[F]_(n, p)) y (W : 'I_n -> 'cV[F]_n) s,
  inverse_contract inv -> fit_core inv storeS storeC lo hi x y W (fun _ => false) = Ok (s, false) ->
  forall i : 'I_n, (lo <= i < hi)%N -> (forall j, 0 <= W i j ord0) ->
  only_minimiser x y (W i) (col i (betas s)).
Proof. exact (fun F n p inv storeS storeC lo hi x y W s c => @C43_main F n p inv c storeS storeC lo hi x y W s). Qed.
Print Assumptions C43_weighted_least_squares.
Example C43_case : inverse_contract (@exact_inv [realFieldType of rat] 1) /\ (forall i j, 0 <= ex_W i j ord0) /\
  exists s, fit_core (@exact_inv _ 1) true true 0 2 ex_x ex_y ex_W (fun _ => false) = Ok (s, false).
Proof. exact (conj (@exact_inv_contract _ _) (conj ex_W0 (ex_run true true 0 2 ex_y))). Qed.

(** C44: S y is the vector of fitted values, shat holds the traces of S and S'S, qdiag the
    column sums of squares of I - S. *)
Theorem C44_hat_matrix : forall (F : realFieldType) n p (inv : 'M[F]_p -> option 'M[F]_p)
    storeC (x : 'M[F]_(n, p)) y (W : 'I_n -> 'cV[F]_n) s,
  fit_core inv true storeC 0 n x y W (fun _ => false) = Ok (s, false) ->
  [/\ (forall i, \sum_a x i a * betas s a i = (stored s *m y) i ord0),
      shat0 s = \tr (stored s), shat1 s = \tr ((stored s)^T *m stored s) &
      forall j, qdiag s j ord0 = \sum_i ((1%:M - stored s) i j) ^+ 2].
Proof. exact C44_sum. Qed.
Print Assumptions C44_hat_matrix.
(** None of them depends on y. *)
Theorem C44_independent_of_y : forall (F : realFieldType) n p (inv : 'M[F]_p -> option 'M[F]_p)
    storeS storeC lo hi (x : 'M[F]_(n, p)) y1 y2 W s1 s2,
  fit_core inv storeS storeC lo hi x y1 W (fun _ => false) = Ok (s1, false) ->
  fit_core inv storeS storeC lo hi x y2 W (fun _ => false) = Ok (s2, false) ->
  [/\ shat0 s1 = shat0 s2, shat1 s1 = shat1 s2, qdiag s1 = qdiag s2, se2 s1 = se2 s2 &
      storeS = true -> forall i : 'I_n, (lo <= i < hi)%N -> rowS s1 (i - lo)%N = rowS s2 (i - lo)%N].
Proof. exact C44_indep. Qed.
Print Assumptions C44_independent_of_y.
Example C44_case : exists s1 s2,
  fit_core (@exact_inv _ 1) true false 0 2 ex_x ex_y ex_W (fun _ => false) = Ok (s1, false) /\
  fit_core (@exact_inv _ 1) true false 0 2 ex_x (2%:R *: ex_y) ex_W (fun _ => false) = Ok (s2, false).
Proof. exact (ex_two (ex_run true false 0 2 ex_y) (ex_run true false 0 2 (2%:R *: ex_y))). Qed.

(** C45: the coefficients are linear in the response, and exact data return the
    generating coefficients. *)
Theorem C45_linear_in_response : forall (F : realFieldType) n p (inv : 'M[F]_p -> option 'M[F]_p)
    storeS storeC lo hi (x : 'M[F]_(n, p)) y1 y2 W s1 s2 (a b : F),
  fit_core inv storeS storeC lo hi x y1 W (fun _ => false) = Ok (s1, false) ->
  fit_core inv storeS storeC lo hi x y2 W (fun _ => false) = Ok (s2, false) ->
  exists s, fit_core inv storeS storeC lo hi x (a *: y1 + b *: y2) W (fun _ => false) = Ok (s, false) /\
    betas s = a *: betas s1 + b *: betas s2.
Proof. exact C45_linear_main. Qed.
Print Assumptions C45_linear_in_response.
Theorem C45_exact_data : forall (F : realFieldType) n p (inv : 'M[F]_p -> option 'M[F]_p)
    storeS storeC lo hi (x : 'M[F]_(n, p)) (g : 'cV[F]_p) W s,
  inverse_contract inv ->
  fit_core inv storeS storeC lo hi x (x *m g) W (fun _ => false) = Ok (s, false) ->
  forall i : 'I_n, (lo <= i < hi)%N -> col i (betas s) = g.
Proof. exact (fun F n p inv storeS storeC lo hi x g W s c => @C45_exact_main F n p inv c storeS storeC lo hi x g W s). Qed.
Print Assumptions C45_exact_data.
Example C45_case : exists s, fit_core (@exact_inv _ 1) true false 0 2 ex_x (ex_x *m const_mx 7%:R) ex_W
   (fun _ => false) = Ok (s, false).
Proof. exact (ex_run true false 0 2 (ex_x *m const_mx 7%:R)). Qed.

(** C46: regressors X A instead of X. *)
Theorem C46_equivariant : forall (F : realFieldType) n p (inv : 'M[F]_p -> option 'M[F]_p)
    storeS storeC lo hi (x : 'M[F]_(n, p)) y (W : 'I_n -> 'cV[F]_n) (A : 'M[F]_p) s s',
  inverse_contract inv -> A \in unitmx ->
  fit_core inv storeS storeC lo hi x y W (fun _ => false) = Ok (s, false) ->
  fit_core inv storeS storeC lo hi (x *m A) y W (fun _ => false) = Ok (s', false) ->
  betas s' = invmx A *m betas s /\ Fitted (x *m A) (betas s') = Fitted x (betas s) /\
  shat0 s' = shat0 s /\ shat1 s' = shat1 s /\ qdiag s' = qdiag s /\
  RSS (x *m A) y (betas s') = RSS x y (betas s).
Proof. exact (fun F n p inv storeS storeC lo hi x y W A s s' c => @C46_main F n p inv c storeS storeC lo hi x y W A s s'). Qed.
Print Assumptions C46_equivariant.
Theorem C46_hat_unchanged : forall (F : realFieldType) n p (inv : 'M[F]_p -> option 'M[F]_p)
    storeC (x : 'M[F]_(n, p)) y (W : 'I_n -> 'cV[F]_n) (A : 'M[F]_p) s s',
  inverse_contract inv -> A \in unitmx ->
  fit_core inv true storeC 0 n x y W (fun _ => false) = Ok (s, false) ->
  fit_core inv true storeC 0 n (x *m A) y W (fun _ => false) = Ok (s', false) ->
  stored s' = stored s.
Proof. exact (fun F n p inv storeC x y W A s s' c => @C46_hat_main F n p inv c storeC x y W A s s'). Qed.
Print Assumptions C46_hat_unchanged.
Example C46_case : (2%:R%:M : 'M[rat]_1) \in unitmx /\ exists s s',
  fit_core (@exact_inv _ 1) true false 0 2 ex_x ex_y ex_W (fun _ => false) = Ok (s, false) /\
  fit_core (@exact_inv _ 1) true false 0 2 (ex_x *m 2%:R%:M) ex_y ex_W (fun _ => false) = Ok (s', false).
Proof. exact (conj ex_two_unit (ex_two (ex_run true false 0 2 ex_y) (ex_run2 true false 0 2 ex_y))). Qed.

(** C47: two data sets that differ only in observation i have the same cross-validation
    coefficients at i; these minimise the weighted residual sum of squares over the
    other observations. *)
Theorem C47_ignores_left_out : forall (F : realFieldType) n p (inv : 'M[F]_p -> option 'M[F]_p)
    lo hi (x : 'M[F]_(n, p)) y x' y' (W : 'I_n -> 'cV[F]_n) (b b' : 'M[F]_(p, n)) (i : 'I_n), (lo <= i < hi)%N ->
  cv_core inv lo hi x y W (fun _ => false) = Ok (b, false) ->
  cv_core inv lo hi x' y' W (fun _ => false) = Ok (b', false) ->
  (forall j, j != i -> row j x = row j x' /\ y j ord0 = y' j ord0) -> col i b = col i b'.
Proof. exact C47_main. Qed.
Print Assumptions C47_ignores_left_out.
Theorem C47_leave_one_out : forall (F : realFieldType) n p (inv : 'M[F]_p -> option 'M[F]_p)
    lo hi (x : 'M[F]_(n, p)) y (W : 'I_n -> 'cV[F]_n) (b : 'M[F]_(p, n)) (i : 'I_n),
  inverse_contract inv -> (lo <= i < hi)%N -> (forall j, 0 <= W i j ord0) ->
  cv_core inv lo hi x y W (fun _ => false) = Ok (b, false) ->
  forall b', \sum_(j | j != i) W i j ord0 * (y j ord0 - (x *m col i b) j ord0) ^+ 2 <=
             \sum_(j | j != i) W i j ord0 * (y j ord0 - (x *m b') j ord0) ^+ 2 /\
    (\sum_(j | j != i) W i j ord0 * (y j ord0 - (x *m b') j ord0) ^+ 2 =
     \sum_(j | j != i) W i j ord0 * (y j ord0 - (x *m col i b) j ord0) ^+ 2 -> b' = col i b).
Proof. exact (fun F n p inv lo hi x y W b i c => @C47_min_main F n p inv c lo hi x y W b i). Qed.
Print Assumptions C47_leave_one_out.
Example C47_case : exists b, cv_core (@exact_inv _ 1) 0 2 ex_x ex_y ex_W (fun _ => false) = Ok (b, false).
Proof. exact (ex_cv 0 2 ex_y). Qed.

(** C48: data sets that agree on the observations of non-zero weight at location i have
    the same coefficients there. *)
Theorem C48_only_weighted : forall (F : realFieldType) n p (inv : 'M[F]_p -> option 'M[F]_p)
    storeS storeC lo hi (x : 'M[F]_(n, p)) y x' y' (W : 'I_n -> 'cV[F]_n) s s' (i : 'I_n), (lo <= i < hi)%N ->
  fit_core inv storeS storeC lo hi x y W (fun _ => false) = Ok (s, false) ->
  fit_core inv storeS storeC lo hi x' y' W (fun _ => false) = Ok (s', false) ->
  (forall j, W i j ord0 <> 0 -> row j x = row j x' /\ y j ord0 = y' j ord0) ->
  col i (betas s) = col i (betas s').
Proof. exact C48_main. Qed.
Print Assumptions C48_only_weighted.
Example C48_case : (exists j, ex_V ord0 j ord0 = 0) /\ exists s s',
  fit_core (@exact_inv _ 1) true false 0 2 ex_x ex_y ex_V (fun _ => false) = Ok (s, false) /\
  fit_core (@exact_inv _ 1) true false 0 2 ex_x' ex_y ex_V (fun _ => false) = Ok (s', false) /\
  (forall j, ex_V ord0 j ord0 <> 0 -> row j ex_x = row j ex_x' /\ ex_y j ord0 = ex_y j ord0) /\
  ex_x <> ex_x'.
Proof. exact ex_zero. Qed.

(** C49: weights scaled by non-zero constants; equal weights everywhere give ordinary
    least squares at every location. *)
Theorem C49_weight_scale : forall (F : realFieldType) n p (inv : 'M[F]_p -> option 'M[F]_p)
    storeS storeC lo hi (x : 'M[F]_(n, p)) y (W W' : 'I_n -> 'cV[F]_n) (c : 'I_n -> F) s s',
  inverse_contract inv ->
  (forall i, c i != 0 /\ W' i = c i *: W i) ->
  fit_core inv storeS storeC lo hi x y W (fun _ => false) = Ok (s, false) ->
  fit_core inv storeS storeC lo hi x y W' (fun _ => false) = Ok (s', false) ->
  betas s' = betas s /\ shat0 s' = shat0 s /\ shat1 s' = shat1 s /\ qdiag s' = qdiag s /\ se2 s' = se2 s.
Proof. exact (fun F n p inv storeS storeC lo hi x y W W' c s s' ct => @C49_main F n p inv ct storeS storeC lo hi x y W W' c s s'). Qed.
Print Assumptions C49_weight_scale.
Theorem C49_global : forall (F : realFieldType) n p (inv : 'M[F]_p -> option 'M[F]_p)
    storeS storeC lo hi (x : 'M[F]_(n, p)) y (W : 'I_n -> 'cV[F]_n) (c : 'I_n -> F) s,
  inverse_contract inv -> (forall i, 0 < c i /\ forall j, W i j ord0 = c i) ->
  fit_core inv storeS storeC lo hi x y W (fun _ => false) = Ok (s, false) ->
  forall i : 'I_n, (lo <= i < hi)%N -> forall b',
    \sum_j (y j ord0 - (x *m col i (betas s)) j ord0) ^+ 2 <= \sum_j (y j ord0 - (x *m b') j ord0) ^+ 2 /\
    (\sum_j (y j ord0 - (x *m b') j ord0) ^+ 2 =
     \sum_j (y j ord0 - (x *m col i (betas s)) j ord0) ^+ 2 -> b' = col i (betas s)).
Proof. exact (fun F n p inv storeS storeC lo hi x y W c s ct => @C49_global_main F n p inv ct storeS storeC lo hi x y W c s). Qed.
Print Assumptions C49_global.
Example C49_case : (exists s s',
  fit_core (@exact_inv _ 1) true false 0 2 ex_x ex_y ex_W (fun _ => false) = Ok (s, false) /\
  fit_core (@exact_inv _ 1) true false 0 2 ex_x ex_y (fun i => 5%:R *: ex_W i) (fun _ => false) = Ok (s', false)) /\
  exists s, fit_core (@exact_inv _ 1) true false 0 2 ex_x ex_y (fun i => const_mx 3%:R) (fun _ => false) = Ok (s, false).
Proof. exact (conj (ex_two (ex_run true false 0 2 ex_y) (ex_run3 true false 0 2 ex_y)) (ex_run4 true false 0 2 ex_y)). Qed.

(** C51: predict at the data locations = fit, including failures and stops in the loop. *)
Theorem C51_predict_is_fit : forall (F : realFieldType) n p (inv : 'M[F]_p -> option 'M[F]_p)
    (L D : Type) (dist : L -> L -> D) (weight : ('I_n -> D) -> 'cV[F]_n)
    (coords : 'I_n -> L) x y stop st,
  predict_at inv dist weight coords coords x y false stop false st =
  match fit_at inv dist weight coords x y false stop st with
  | Ok (b, st') => Ok (inl b, st') | Throw => Throw | UB => UB end.
Proof. exact C51_main. Qed.
Print Assumptions C51_predict_is_fit.
(** C51: at any locations the coefficients are the only minimiser of the residual sum of squares
    weighted by the distances from the location to the data. *)
Theorem C51_predict_least_squares : forall (F : realFieldType) n p m (inv : 'M[F]_p -> option 'M[F]_p)
    (L D : Type) (dist : L -> L -> D) (weight : ('I_n -> D) -> 'cV[F]_n) (coords : 'I_n -> L) (locations : 'I_m -> L)
    (x : 'M[F]_(n, p)) y (stop : 'I_m -> bool) st b st',
  inverse_contract inv -> (forall i, ~~ stop i) ->
  predict_at inv dist weight coords locations x y false stop false st = Ok (inl b, st') ->
  st' = st /\ forall i : 'I_m, let w := weight (fun j => dist (locations i) (coords j)) in
  (forall j, 0 <= w j ord0) -> only_minimiser x y w (row i b)^T.
Proof. exact predict_min. Qed.
Print Assumptions C51_predict_least_squares.
Example C51_case : exists b,
  fit_at (@exact_inv _ 1) (fun a c : 'I_2 => a == c) (fun d => \col_j (if d j then 1 else 2%:R^-1))
    id ex_x ex_y false (fun _ => false) Success = Ok (b, Success).
Proof. exact ex_fit_at. Qed.

(** C52: a status Terminated is never reset, and a stop request sets it. *)
Theorem C52_status_sticky : forall (F : realFieldType) n p (inv : 'M[F]_p -> option 'M[F]_p)
    (x : 'M[F]_(n, p)) y (W : 'I_n -> 'cV[F]_n) stop0 stop b st st',
  fit inv x y W stop0 stop st = Ok (b, st') ->
  st = Terminated \/ stop0 || [exists i, stop i] -> st' = Terminated.
Proof. exact C52_both. Qed.
Print Assumptions C52_status_sticky.
(** The same of predict, which returns zeros when stopped before or after its loop. *)
Theorem C52_predict_status : forall (F : realFieldType) n p m (inv : 'M[F]_p -> option 'M[F]_p)
    (x : 'M[F]_(n, p)) y (Wl : 'I_m -> 'cV[F]_n) stop0 stop stop1 b st st',
  predict inv x y Wl stop0 stop stop1 st = Ok (b, st') ->
  (st = Terminated \/ [|| stop0, stop1 | [exists i, stop i]] -> st' = Terminated) /\
  (stop0 || stop1 -> b = inr 0).
Proof. exact C52_predict_main. Qed.
Print Assumptions C52_predict_status.
(** A stop during the loop leaves the coefficients of the locations before it, and zeros
    for the others; only a stop before the loop gives the zero matrix. *)
Theorem C52_result_partial : forall (F : realFieldType) n p (inv : 'M[F]_p -> option 'M[F]_p)
    (x : 'M[F]_(n, p)) y (W : 'I_n -> 'cV[F]_n) stop0 stop b st st',
  inverse_contract inv -> fit inv x y W stop0 stop st = Ok (b, st') ->
  (stop0 = true -> b = 0) /\
  (stop0 = false -> forall i : 'I_n,
  ((forall j : 'I_n, (j <= i)%N -> ~~ stop j) -> (forall j, 0 <= W i j ord0) ->
     only_minimiser x y (W i) (row i b)^T) /\
  ((exists2 j : 'I_n, (j <= i)%N & stop j) -> row i b = 0)).
Proof. exact (fun F n p inv x y W stop0 stop b st st' c => @C52_result F n p inv c x y W stop0 stop b st st'). Qed.
Print Assumptions C52_result_partial.
Theorem C52_half_computed_refuted : exists s b,
  fit (@exact_inv _ 1) ex_x ex_y ex_W false (fun i => i == ord_max) Success = Ok (b, s) /\
  s = Terminated /\ b <> 0 /\ row ord_max b = 0.
Proof. exact ex_half. Qed.
Print Assumptions C52_half_computed_refuted.

(** C86: the coefficients and traces from which the bandwidth criterion computes AICc are
    those of the final fit with the same weights, whatever is stored and wherever it stops. *)
Theorem C86_criterion_uses_final_fit : forall (F : realFieldType) n p (inv : 'M[F]_p -> option 'M[F]_p)
    storeS storeC lo hi (x : 'M[F]_(n, p)) y (W : 'I_n -> 'cV[F]_n) stop,
  shat_core inv lo hi x y W stop =
  match fit_core inv storeS storeC lo hi x y W stop with
  | Ok (s, b) => Ok (betas s, shat0 s, shat1 s, b) | Throw => Throw | UB => UB end.
Proof. exact C86_main. Qed.
Print Assumptions C86_criterion_uses_final_fit.

(** C87: the stored matrix C_i maps the response to the coefficients, recovers exact
    coefficients, and the unscaled squared standard errors are the diagonal of C_i C_i'. *)
Theorem C87_coefficient_operator : forall (F : realFieldType) n p (inv : 'M[F]_p -> option 'M[F]_p)
    storeS lo hi (x : 'M[F]_(n, p)) y (W : 'I_n -> 'cV[F]_n) s, inverse_contract inv -> (hi <= n)%N ->
  fit_core inv storeS true lo hi x y W (fun _ => false) = Ok (s, false) ->
  forall i : 'I_n, (lo <= i < hi)%N ->
  col i (betas s) = sliceC s (i - lo)%N *m y /\
  sliceC s (i - lo)%N *m x = 1%:M /\
  forall a, se2 s a i = (sliceC s (i - lo)%N *m (sliceC s (i - lo)%N)^T) a a.
Proof. exact (fun F n p inv storeS lo hi x y W s c => @C87_main F n p inv c storeS lo hi x y W s). Qed.
Print Assumptions C87_coefficient_operator.
Example C87_case : exists s,
  fit_core (@exact_inv _ 1) false true 1 2 ex_x ex_y ex_W (fun _ => false) = Ok (s, false).
Proof. exact (ex_run false true 1 2 ex_y). Qed.

(** C120: a cross-validation value is the sum of the squared errors of predicting every observation
    from coefficients fitted to the others; there is none after a stop or termination. *)
Theorem C120_leave_one_out : forall (F : realFieldType) n p (inv : 'M[F]_p -> option 'M[F]_p)
    (x : 'M[F]_(n, p)) y (W : 'I_n -> 'cV[F]_n) stop terminated v,
  inverse_contract inv -> (forall i j, 0 <= W i j ord0) ->
  criterion_cv inv x y W stop terminated = Some v ->
  terminated = false /\ (forall i, ~~ stop i) /\
  exists b : 'M[F]_(p, n), v = \sum_i (y i ord0 - (x *m col i b) i ord0) ^+ 2 /\
    forall (i : 'I_n) (w : 'cV[F]_n), w i ord0 = 0 -> (forall j, j != i -> w j ord0 = W i j ord0) ->
      only_minimiser x y w (col i b).
Proof. exact criterion_cv_loo. Qed.
Print Assumptions C120_leave_one_out.
(** C120: without stop there is a value whenever the inverse answers at every location. *)
Theorem C120_value : forall (F : realFieldType) n p (inv : 'M[F]_p -> option 'M[F]_p) (x : 'M[F]_(n, p)) y (W : 'I_n -> 'cV[F]_n),
  (forall (i : 'I_n) (w : 'cV[F]_n), w i ord0 = 0 -> (forall j, j != i -> w j ord0 = W i j ord0) ->
     inv (x^T *m diag_mx w^T *m x) <> None) ->
  exists v, criterion_cv inv x y W (fun _ => false) false = Some v.
Proof. exact cv_value. Qed.
Print Assumptions C120_value.
Example C120_case : exists v, criterion_cv (@exact_inv _ 1) ex_x ex_y ex_W (fun _ => false) false = Some v.
Proof. exact ex_cv_value. Qed.
