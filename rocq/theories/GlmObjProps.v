(** C155: a generalised GWR object over several calls. *)
From mathcomp Require Import all_ssreflect all_algebra.
From Verif Require Import Outcome GwrModel GwrSpec GwrProofs GwrCases GlmModel GlmFitModel GlmFitProofs GlmObjModel GlmObjSpec GlmObjProofs GlmObjCases.
Set Implicit Arguments. Unset Strict Implicit. Unset Printing Implicit Defensive.
Import Order.TTheory GRing.Theory Num.Theory.
Local Open Scope ring_scope.

(** C155: after any calls, of which the last prediction or hat matrix setting, if any, is setHasHatMatrix(true), fit returns
    what it would return on a new object with the same bandwidth; for a bandwidth to be selected this holds while no call
    was interrupted.  Missing from the full statement: predictions and interruptions, see below. *)
Theorem C155_again_partial : forall (F : realFieldType) n p (Bw : Type) inv (x : 'M[F]_(n, p)) fam weights select glm score
    (b : Bw) a cs1 cs2 s stop, prepared cs1 -> undisturbed cs2 ->
  let o := run inv x fam weights select glm score (cs1 ++ cs2) (fresh F n p b a) in
  (o_auto o = true -> o_term o = false) ->
  (fit inv x fam weights select glm score s stop o).1 = (fit inv x fam weights select glm score s stop (fresh F n p (o_bw o) (o_auto o))).1.
Proof. exact again_main. Qed.
Print Assumptions C155_again_partial.
(** Its coefficients are the weighted least squares fits with the bandwidth set last. *)
Theorem C155_least_squares_partial : forall (F : realFieldType) (n p : nat) (Bw : Type) (inv : 'M[F]_p -> option 'M[F]_p) (x : 'M[F]_(n, p)) fam
    (weights : Bw -> 'I_n -> 'cV[F]_n) select glm score b cs1 cs2 s stop w2 z B,
  inverse_contract inv -> prepared cs1 -> undisturbed cs2 -> never_auto (cs1 ++ cs2) -> uninterrupted stop s ->
  let o := run inv x fam weights select glm score (cs1 ++ cs2) (fresh F n p b false) in
  let W := weights (bandwidth_asked b (cs1 ++ cs2)) in
  score W = Ok (w2, z) -> (fit inv x fam weights select glm score s stop o).1 = Coefficients B ->
  forall i, (forall j, 0 <= W i j ord0 * w2 j ord0)%R -> only_minimiser x z (\col_j (W i j ord0 * w2 j ord0)) (row i B)^T.
Proof. exact least_squares_main. Qed.
Print Assumptions C155_least_squares_partial.
(** Fitting twice, not interrupted, gives the same coefficients if the search does not depend on where it starts. *)
Theorem C155_twice_partial : forall (F : realFieldType) n p (Bw : Type) inv (x : 'M[F]_(n, p)) fam weights
    (select : bool -> Bw -> outcome (option Bw * bool)) glm score o s stop B,
  (forall b b', select false b = select false b') -> (forall b r u, select false b = Ok (r, u) -> exists c, r = Some c) ->
  (fit inv x fam weights select glm score s stop o).1 = Coefficients B ->
  (o_auto o = true -> o_term o = false /\ o_term (fit inv x fam weights select glm score s stop o).2 = false) ->
  (fit inv x fam weights select glm score s stop (fit inv x fam weights select glm score s stop o).2).1 = Coefficients B.
Proof. exact twice_main. Qed.
Print Assumptions C155_twice_partial.
Example C155_case : inverse_contract (@exact_inv [realFieldType of rat] 1) /\ prepared [:: ob_predict; SetHat true] /\ undisturbed [:: ob_f] /\
  exists B, (ob_fit (false, false, false) (fun _ => false) (ob_run ([:: ob_predict; SetHat true] ++ [:: ob_f]) (ob_new false))).1 = Coefficients B.
Proof.
split; first exact: exact_inv_contract. split; first by right; exists [:: ob_predict]. split=> //.
apply: ob_hat. by rewrite run_cat run_keeps.
Qed.

(** C155, refuted: with more than one observation, after predict (or setHasHatMatrix(false)) every fit throws, until
    setHasHatMatrix(true) is called; predict itself switches the hat matrix off for good. *)
Theorem C155_predict_refuted : forall (F : realFieldType) n p (Bw : Type) inv (x : 'M[F]_(n, p)) fam weights select glm score
    (o : object F n p Bw) cs1 c cs2 s stop,
  (1 < n)%N -> switches_off c -> undisturbed cs2 -> uninterrupted stop s ->
  (forall t b, select t b <> UB) -> glm <> UB -> (forall W, score W <> UB) ->
  (fit inv x fam weights select glm score s stop (run inv x fam weights select glm score (rcons cs1 c ++ cs2) o)).1 = Threw.
Proof. exact lost_main. Qed.
Print Assumptions C155_predict_refuted.
Example C155_predict_case : exists B,
  (ob_fit (false, false, false) (fun _ => false) (ob_run [:: ob_f] (ob_new false))).1 = Coefficients B /\
  (ob_fit (false, false, false) (fun _ => false) (ob_run [:: ob_f; ob_predict; ob_f] (ob_new false))).1 = Threw.
Proof. exact ob_lost. Qed.

(** C155, refuted: once a call was cancelled, a bandwidth to be selected is never selected again: fit keeps the bandwidth and
    returns what it would without selection.  The hypothesis is what the search does with status Terminated: every
    criterion is DBL_MAX and the initial bandwidth is kept (C26, C125). *)
Theorem C155_cancelled_refuted : forall (F : realFieldType) n p (Bw : Type) inv (x : 'M[F]_(n, p)) fam weights
    (select : bool -> Bw -> outcome (option Bw * bool)) glm score,
  (forall b, exists r, select true b = Ok (r, true) /\ (r = None \/ r = Some b)) ->
  forall o cs1 cs2 s1 s2 st s2' stop,
  let o' := run inv x fam weights select glm score (rcons cs1 (Fit (true, s1, s2) st) ++ cs2) o in
  o_term o' = true /\ o_bw (fit inv x fam weights select glm score (false, false, s2') stop o').2 = o_bw o' /\
  (fit inv x fam weights select glm score (false, false, s2') stop o').1 =
  (fit inv x fam weights select glm score (false, false, s2') stop (Object (o_bw o') false (o_hat o') (o_term o') (o_wt o') (o_betas o'))).1.
Proof. exact interrupted_main. Qed.
Print Assumptions C155_cancelled_refuted.
Example C155_cancelled_case : o_bw (ob_fit (false, false, false) (fun _ => false) (ob_new true)).2 = 2%N /\
  o_bw (ob_fit (false, false, false) (fun _ => false) (ob_run [:: ob_cancel] (ob_new true))).2 = 1%N.
Proof. exact ob_stale. Qed.

(** C155: betas() is what the last fit returned, whatever is set afterwards, and also after predictions (which throw). *)
Theorem C155_betas : forall (F : realFieldType) n p (Bw : Type) inv (x : 'M[F]_(n, p)) fam weights select glm score
    (o : object F n p Bw) s stop cs B, (1 < n)%N -> (forall W, score W <> UB) ->
  (fit inv x fam weights select glm score s stop o).1 = Coefficients B -> all (@quiet F n Bw) cs ->
  o_betas (run inv x fam weights select glm score cs (fit inv x fam weights select glm score s stop o).2) = ByRow B.
Proof. exact betas_main. Qed.
Print Assumptions C155_betas.
(** Refuted for a fit that throws or is cancelled in or after the regression: betas() is a matrix of the other shape,
    one column per observation. *)
Theorem C155_betas_refuted : forall (F : realFieldType) n p (Bw : Type) inv (x : 'M[F]_(n, p)) fam weights select glm score
    s stop (o : object F n p Bw), s.1 = (false, false) ->
  (forall B, (fit inv x fam weights select glm score s stop o).1 <> Coefficients B) ->
  (forall t b, exists r, select t b = Ok r) -> exists C, o_betas (fit inv x fam weights select glm score s stop o).2 = ByColumn C.
Proof. exact betas_lost. Qed.
Print Assumptions C155_betas_refuted.
Example C155_betas_case : exists C, (ob_fit (false, false, true) (fun _ => false) (ob_new false)).1 = Cancelled /\
  o_betas (ob_fit (false, false, true) (fun _ => false) (ob_new false)).2 = ByColumn C.
Proof. exact ob_betas. Qed.
