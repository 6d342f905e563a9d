From mathcomp Require Import all_ssreflect all_algebra.
From Verif Require Import Outcome GwrModel GwrSpec GwrProofs GwrCases GlmModel GlmFitModel GlmFitProofs GlmObjModel GlmObjSpec GlmObjProofs.
Set Implicit Arguments. Unset Strict Implicit. Unset Printing Implicit Defensive.
Import Order.TTheory GRing.Theory Num.Theory.
Local Open Scope ring_scope.

(** The coefficients of a fit with hat matrix. *)
Lemma least_squares_main (F : realFieldType) (n p : nat) (Bw : Type) (inv : 'M[F]_p -> option 'M[F]_p) (x : 'M[F]_(n, p)) fam
    (weights : Bw -> 'I_n -> 'cV[F]_n) select glm score b cs1 cs2 s stop w2 z B :
  inverse_contract inv -> prepared cs1 -> undisturbed cs2 -> never_auto (cs1 ++ cs2) -> uninterrupted stop s ->
  let o := run inv x fam weights select glm score (cs1 ++ cs2) (fresh F n p b false) in
  let W := weights (bandwidth_asked b (cs1 ++ cs2)) in
  score W = Ok (w2, z) -> (fit inv x fam weights select glm score s stop o).1 = Coefficients B ->
  forall i, (forall j, 0 <= W i j ord0 * w2 j ord0) -> only_minimiser x z (\col_j (W i j ord0 * w2 j ord0)) (row i B)^T.
Proof.
move=> IC P U NA [-> Q] o W ES.
have HB : o_bw o = bandwidth_asked b (cs1 ++ cs2) by exact: bw_main.
have HH : o_hat o = true by rewrite /o run_cat run_keeps //; case: P => [->|[t ->]] //; rewrite run_rcons.
have HA : o_auto o = false.
  rewrite /o. move: NA. elim: (cs1 ++ cs2) (fresh F n p b false) (erefl : o_auto (fresh F n p b false) = false) => //= c cs IH o' A /andP [Hc Hs].
  apply: IH => //. case: c Hc => //= [s0 st _|l s0 st _|a]; last by case: a.
  - by rewrite (fit_keeps inv x fam weights select glm score s0 st o').2.
  - rewrite /predict. case: s0.1 => //. case: (o_wt o') => //= V. case: (regression _ _ _ _ _ _ _ _) => g i. by case: g => // g; case: s0.2.
case: o HB HH HA => b0 a h t w m /= -> -> ->. rewrite -/W. case: glm => [v||] //=. rewrite /regression ES /=.
case E: (ggwr_fit _ _ _ _ _ _ _ _ _ _) => [g||] //= -[<-] i Hi.
have E' : ggwr_fit inv x fam true W W w2 z (fun _ => false) 0 = Ok g.
  rewrite -E /ggwr_fit. have -> // : forall f idx st, ggwr_loop f stop idx st = ggwr_loop f (fun _ => false) idx st :> gfit F n p.
  by move=> f; elim=> //= k idx IH st; rewrite Q IH.
have [A _] := C67_fit_same IC E'. by rewrite tr_row trmxK; apply: A.
Qed.

(** Two observations, three bandwidths; the search chooses 2 unless the status is Terminated. *)
Definition ob_w (b : nat) (i : 'I_2) : 'cV[rat]_2 := ex_W i.
Definition ob_select (t : bool) (b : nat) : outcome (option nat * bool) := if t then Ok (None, true) else Ok (Some 2%N, false).
Definition ob_score (W : 'I_2 -> 'cV[rat]_2) : outcome ('cV[rat]_2 * 'cV[rat]_2) := Ok (ex_w2, ex_y).
Notation ob_fit := (fit (@exact_inv [realFieldType of rat] 1) ex_x Poisson ob_w ob_select (Ok tt) ob_score).
Notation ob_run := (run (@exact_inv [realFieldType of rat] 1) ex_x Poisson ob_w ob_select (Ok tt) ob_score).
Definition ob_new (auto : bool) : object [realFieldType of rat] 2 1 nat := fresh _ 2 1 1%N auto.
Definition ob_predict : call [realFieldType of rat] 2 nat := Predict [:: (1, 2%:R)] (false, false) (fun _ => false).
Definition ob_f : call [realFieldType of rat] 2 nat := Fit (false, false, false) (fun _ => false).
Definition ob_cancel : call [realFieldType of rat] 2 nat := Fit (true, false, false) (fun _ => false).
Lemma ob_hat (o : object [realFieldType of rat] 2 1 nat) : o_hat o = true ->
  exists B, (ob_fit (false, false, false) (fun _ => false) o).1 = Coefficients B.
Proof.
case: o => b a h t w m /= ->. have [g G] := ex_gfit Poisson (0 : 'M_(1, 2)).
by case: a; case: t => /=; rewrite [ggwr_fit _ _ _ _ _ _ _ _ _ _]G; eexists.
Qed.
(** predict and cancellations end it. *)
Lemma ob_lost : exists B, (ob_fit (false, false, false) (fun _ => false) (ob_run [:: ob_f] (ob_new false))).1 = Coefficients B /\
  (ob_fit (false, false, false) (fun _ => false) (ob_run [:: ob_f; ob_predict; ob_f] (ob_new false))).1 = Threw.
Proof.
have [B E] := @ob_hat (ob_run [:: ob_f] (ob_new false)) (run_keeps _ _ _ _ _ _ _ (cs := [:: ob_f]) (ob_new false) isT).
exists B. split=> //. apply: (@lost_main _ 2 1 nat (@exact_inv [realFieldType of rat] 1) ex_x Poisson ob_w ob_select (Ok tt) ob_score (ob_new false) [:: ob_f] ob_predict [:: ob_f]) => //.
by move=> t b; rewrite /ob_select; case: t.
Qed.
Lemma ob_stale : o_bw (ob_fit (false, false, false) (fun _ => false) (ob_new true)).2 = 2%N /\
  o_bw (ob_fit (false, false, false) (fun _ => false) (ob_run [:: ob_cancel] (ob_new true))).2 = 1%N.
Proof.
split.
- rewrite /=. have [g G] := ex_gfit Poisson (0 : 'M_(1, 2)). by rewrite /regression /ob_score /= [ggwr_fit _ _ _ _ _ _ _ _ _ _]G.
- have [|_ [-> _]] // := @interrupted_main _ 2 1 nat (@exact_inv [realFieldType of rat] 1) ex_x Poisson ob_w ob_select (Ok tt) ob_score _ (ob_new true) [::] [::] false false (fun _ => false) false (fun _ => false).
  by move=> b; exists None; split=> //; left.
Qed.
(** A fit that is cancelled after the regression leaves the transpose. *)
Lemma ob_betas : exists C, (ob_fit (false, false, true) (fun _ => false) (ob_new false)).1 = Cancelled /\
  o_betas (ob_fit (false, false, true) (fun _ => false) (ob_new false)).2 = ByColumn C.
Proof.
have [g G] := ex_gfit Poisson (0 : 'M_(1, 2)). exists (gbetas g). rewrite /=. by rewrite /regression /ob_score /= [ggwr_fit _ _ _ _ _ _ _ _ _ _]G.
Qed.
