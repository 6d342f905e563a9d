From mathcomp Require Import all_ssreflect all_algebra.
From Verif Require Import Outcome GwrModel GlmModel GlmFitModel GlmObjModel GlmObjSpec.
Set Implicit Arguments. Unset Strict Implicit. Unset Printing Implicit Defensive.
Import GRing.Theory.
Local Open Scope ring_scope.

Section P.
Variables (F : realFieldType) (n p : nat) (Bw : Type).
Variable inv : 'M[F]_p -> option 'M[F]_p.
Variable x : 'M[F]_(n, p).
Variable fam : family.
Variable weights : Bw -> 'I_n -> 'cV[F]_n.
Variable select : bool -> Bw -> outcome (option Bw * bool).
Variable glm : outcome unit.
Variable score : ('I_n -> 'cV[F]_n) -> outcome ('cV[F]_n * 'cV[F]_n).
Notation fit := (fit inv x fam weights select glm score).
Notation step := (step inv x fam weights select glm score).
Notation predict := (predict inv x fam score).
Notation run := (run inv x fam weights select glm score).
Notation fresh := (fresh F n p).
Notation object := (object F n p Bw).
Implicit Types o : object.

Lemma fit_settings s stop o o' : o_bw o = o_bw o' -> o_auto o = o_auto o' -> o_hat o = o_hat o' ->
  (o_auto o = true -> o_term o = o_term o') -> (fit s stop o).1 = (fit s stop o').1.
Proof.
case: o => b a h t w m; case: o' => b' a' h' t' w' m' /= <- <- <-. case: s => [[s0 s1] s2] /=. case: s0 => //.
move=> T. have {T} -> : (if a then select t b else Ok (None, t)) = (if a then select t' b else Ok (None, t)).
  by case: a T => // ->.
by case: a => /=; [case: (select t' b) => [[r u]||] //=; case: s1 => //=|];
  case: glm => [v||] //=; case: (regression _ _ _ _ _ _ _ _) => g i /=; case: g => // g; case: s2.
Qed.

Lemma fit_keeps s stop o : o_hat (fit s stop o).2 = o_hat o /\ o_auto (fit s stop o).2 = o_auto o.
Proof.
case: o => b a h t w m. case: s => [[s0 s1] s2] /=. case: s0 => //=. case: (if a then _ else _) => [[r u]||] //=.
case: (a && s1) => //=. case: glm => //= _. case: (regression _ _ _ _ _ _ _ _) => g i /=. by case: g => // g; case: s2.
Qed.
Lemma step_keeps c o : match c with Predict _ _ _ | SetHat _ => false | _ => true end -> o_hat (step c o).2 = o_hat o.
Proof. case: c => //= s st _. by case: (fit_keeps s st o). Qed.
Lemma run_keeps cs o : undisturbed cs -> o_hat (run cs o) = o_hat o.
Proof. elim: cs o => //= c cs IH o /andP [Hc /IH ->]. exact: step_keeps. Qed.
Lemma run_cat cs1 cs2 o : run (cs1 ++ cs2) o = run cs2 (run cs1 o).
Proof. by rewrite /GlmObjModel.run foldl_cat. Qed.
Lemma run_rcons cs c o : run (rcons cs c) o = (step c (run cs o)).2.
Proof. by rewrite -cats1 run_cat. Qed.

(** As a new object. *)
Lemma again_main b a cs1 cs2 s stop : prepared cs1 -> undisturbed cs2 ->
  let o := run (cs1 ++ cs2) (fresh b a) in (o_auto o = true -> o_term o = false) ->
  (fit s stop o).1 = (fit s stop (fresh (o_bw o) (o_auto o))).1.
Proof.
move=> P U o T. apply: fit_settings => //. rewrite /o run_cat run_keeps //. by case: P => [->|[t ->]] //; rewrite run_rcons.
Qed.

(** Without hat matrix. *)
Lemma off_main s stop o : (1 < n)%N -> o_hat o = false -> uninterrupted stop s ->
  (forall t b, select t b <> UB) -> glm <> UB -> (forall W, score W <> UB) -> (fit s stop o).1 = Threw.
Proof.
move=> N H [-> U] NS NG NC. case: o H => b a h t w m /= ->. move: (NS t b).
have R W : (regression inv x fam score false W stop 0).1 = Throw.
  rewrite /regression. move: (NC W). case: (score W) => [[w2 z]||] //= _.
  have i0 : 'I_n := Ordinal (ltnW N).
  rewrite /ggwr_fit. have N1 : (n == 1%N) = false by case: (n) N => [|[|k]].
  have st1 st i : ~~ correct (ggwr_step inv x fam false W W w2 z i st) by rewrite /ggwr_step /matrix_product N1.
  have bad : forall idx st, ~~ correct st -> ~~ correct (ggwr_loop (ggwr_step inv x fam false W W w2 z) stop idx st).
    elim=> [|i l IH] st //= Hst. rewrite U. by apply: IH; apply: st1.
  case Ee: (enum 'I_n) => [|i l]; first by have := mem_enum 'I_n i0; rewrite Ee in_nil inE.
  rewrite /= U. by have /negbTE -> := bad l _ (st1 (Gfit 0 0 0 0 0 true) i).
case: a => /=.
- case: (select t b) => [[r u]||] //= _. case: glm NG => //= _ _. move: (R (weights (match r with Some b0 => b0 | None => b end))).
  by case: (regression _ _ _ _ _ _ _ _) => g i /= ->.
- move=> _. case: glm NG => //= _ _. move: (R (weights b)). by case: (regression _ _ _ _ _ _ _ _) => g i /= ->.
Qed.
Lemma switched c o : switches_off c -> o_hat (step c o).2 = false.
Proof.
case: c => //= [l s st _|h]; last by case: h.
rewrite /GlmObjModel.predict. case: s.1 => //. case: (o_wt o) => //= W. case: (regression _ _ _ _ _ _ _ _) => g i. by case: g => // g; case: s.2.
Qed.
Lemma lost_main o cs1 c cs2 s stop : (1 < n)%N -> switches_off c -> undisturbed cs2 -> uninterrupted stop s ->
  (forall t b, select t b <> UB) -> glm <> UB -> (forall W, score W <> UB) ->
  (fit s stop (run (rcons cs1 c ++ cs2) o)).1 = Threw.
Proof.
move=> N S U Q A B C. apply: off_main => //. by rewrite run_cat run_keeps // run_rcons switched.
Qed.

(** betas(). *)
Lemma fit_betas s stop o B : (fit s stop o).1 = Coefficients B -> o_betas (fit s stop o).2 = ByRow B.
Proof.
case: o => b a h t w m. case: s => [[s0 s1] s2] /=. case: s0 => //=. case: (if a then _ else _) => [[r u]||] //=.
case: (a && s1) => //=. case: glm => //= _. case: (regression _ _ _ _ _ _ _ _) => g i /=. by case: g => // g; case: s2 => //= -[<-].
Qed.
Lemma quiet_step c o : (1 < n)%N -> (forall W, score W <> UB) -> quiet c -> o_betas (step c o).2 = o_betas o.
Proof.
move=> N NC. case: c => //= l [s0 s1] st /= /and3P [/negbTE Q0 /negbTE Q1 /forallP Q].
rewrite /GlmObjModel.predict /= Q0. case: (o_wt o) => //= W. rewrite /regression.
move: (NC W). case: (score W) => [[w2 z]||] //= _.
have i0 : 'I_n := Ordinal (ltnW N).
rewrite /ggwr_fit. have N1 : (n == 1%N) = false by case: (n) N => [|[|k]].
have st1 st' i : ~~ correct (ggwr_step inv x fam false W W w2 z i st') by rewrite /ggwr_step /matrix_product N1.
have bad : forall idx st', ~~ correct st' -> ~~ correct (ggwr_loop (ggwr_step inv x fam false W W w2 z) st idx st').
  elim=> [|i k IH] st' //= Hst. rewrite (negbTE (Q i)). by apply: IH; apply: st1.
case Ee: (enum 'I_n) => [|i k]; first by have := mem_enum 'I_n i0; rewrite Ee in_nil inE.
rewrite /= (negbTE (Q i)). by have /negbTE -> := bad k _ (st1 (Gfit 0 (match o_betas o with ByRow _ => 0 | ByColumn m => m end) 0 0 0 true) i).
Qed.
Lemma betas_main o s stop cs B : (1 < n)%N -> (forall W, score W <> UB) -> (fit s stop o).1 = Coefficients B ->
  all (@quiet F n Bw) cs -> o_betas (run cs (fit s stop o).2) = ByRow B.
Proof.
move=> N NC H. move: (fit_betas H). elim: cs (fit s stop o).2 => //= c cs IH o' E /andP [Qc Qs].
apply: IH => //. by rewrite quiet_step.
Qed.
(** A fit that does not return coefficients after it started computing leaves a matrix of the other shape. *)
Lemma betas_lost s stop o : s.1 = (false, false) -> (forall B, (fit s stop o).1 <> Coefficients B) ->
  (forall t b, exists r, select t b = Ok r) -> exists C, o_betas (fit s stop o).2 = ByColumn C.
Proof.
case: s => [[s0 s1] s2] /= [-> ->]. case: o => b a h t w m /=. move=> H S.
have E : exists r, (if a then select t b else Ok (None, t)) = Ok r by case: (a); [exact: S|eexists].
case: E H => [[r u] ->] /=. rewrite andbF. case: glm => [_||] /=; try by move=> _; eexists.
case: (regression _ _ _ _ _ _ _ _) => g i /=. case: g => [g||] /=; try by move=> _; eexists.
case: s2 => /= H; first by eexists. by case: (H (gbetas g)^T).
Qed.

(** Bandwidth. *)
Lemma bw_main b cs : never_auto cs -> o_bw (run cs (fresh b false)) = bandwidth_asked b cs.
Proof.
have G o : never_auto cs -> o_auto o = false -> o_bw (run cs o) = bandwidth_asked (o_bw o) cs.
  elim: cs o => //= c cs IH o /andP [Hc Hs] A.
  have : o_auto (step c o).2 = false /\ o_bw (step c o).2 = (if c is SetBandwidth b then b else o_bw o).
    case: c Hc => //= [s st _|l s st _|a].
    - split; first by rewrite (fit_keeps s st o).2. case: o A => b0 a h t w m /= ->. case: s => [[s0 s1] s2] /=.
      case: s0 => //=. case: glm => //= _. case: (regression _ _ _ _ _ _ _ _) => g i /=. by case: g => // g; case: s2.
    - rewrite /GlmObjModel.predict. case: s.1 => //. case: (o_wt o) => //= W. case: (regression _ _ _ _ _ _ _ _) => g i. by case: g => // g; case: s.2.
    - by case: a.
  case=> A' B'. rewrite IH // B'. by case: c Hc A' B'.
by move/G=> H; apply: H.
Qed.

(** Twice the same fit. *)
Lemma twice_main o s stop B : (forall b b', select false b = select false b') -> (forall b r u, select false b = Ok (r, u) -> exists c, r = Some c) ->
  (fit s stop o).1 = Coefficients B -> (o_auto o = true -> o_term o = false /\ o_term (fit s stop o).2 = false) ->
  (fit s stop (fit s stop o).2).1 = Coefficients B.
Proof.
move=> I N H. have : fit s stop o = ((fit s stop o).1, (fit s stop o).2) by case: (fit s stop o).
move: H. case: o => b a h t w m. case: s => [[s0 s1] s2] /=. case: s0 => //=.
case: a => /=; last first.
  move=> H _ _. move: H. case Eg: glm => //= [v]. case Er: (regression _ _ _ _ _ _ _ _) => [g i] /=. case: g Er => // g Er; case: s2 => //= -[<-].
  by rewrite ?Eg Er.
move=> H _ /(_ erefl) [Et T]. subst t. move: H T.
case Es: (select false b) => [[r u]||] //=. have [c Ec] := N _ _ _ Es. subst r.
case: s1 => //=. case Eg: glm => //= [v]. case Er: (regression _ _ _ _ _ _ _ _) => [g i] /=. case: g Er => // g Er; case: s2 => //= -[<-] T.
by rewrite T (I c b) Es /= ?Eg Er.
Qed.

(** After an interruption nothing is selected any more. *)
Definition with_auto a o : object := Object (o_bw o) a (o_hat o) (o_term o) (o_wt o) (o_betas o).
Section Term.
Hypothesis T : forall b, exists r, select true b = Ok (r, true) /\ (r = None \/ r = Some b).
Lemma term_fit s stop o : o_term o = true -> o_term (fit s stop o).2 = true /\ o_bw (fit s stop o).2 = o_bw o.
Proof.
case: o => b a h t w m /= ->. case: s => [[s0 s1] s2] /=. case: s0 => //=.
have [r [E R]] := T b.
have [r' [-> R']] : exists r', (if a then select true b else Ok (None, true)) = Ok (r', true) /\ (r' = None \/ r' = Some b).
  by case: a; [exists r|exists None; split=> //; left].
have -> /= : match r' with Some b0 => b0 | None => b end = b by case: R' => ->.
case: (a && s1) => //=. case: glm => [v||] //=. case: (regression _ _ _ _ _ _ _ _) => g i /=. by case: g => // g; case: s2.
Qed.
Lemma term_step c o : o_term o = true -> o_term (step c o).2 = true.
Proof.
case: c => //= [s st H|l s st H]; first by case: (term_fit s st H).
rewrite /GlmObjModel.predict. case: s.1 => //. case: (o_wt o) => //= W. case: (regression _ _ _ _ _ _ _ _) => g i.
by case: g => [g||] /=; rewrite ?H //; case: s.2 => /=; rewrite ?H.
Qed.
Lemma term_run cs o : o_term o = true -> o_term (run cs o) = true.
Proof. elim: cs o => //= c cs IH o H. apply: IH. exact: term_step. Qed.
Lemma term_same s0 s2 stop o : o_term o = true ->
  (fit (s0, false, s2) stop o).1 = (fit (s0, false, s2) stop (with_auto false o)).1.
Proof.
case: o => b a h t w m /= ->. case: s0 => //=. have [r [E R]] := T b.
have [r' [-> R']] : exists r', (if a then select true b else Ok (None, true)) = Ok (r', true) /\ (r' = None \/ r' = Some b).
  by case: a; [exists r|exists None; split=> //; left].
have -> /= : match r' with Some b0 => b0 | None => b end = b by case: R' => ->.
rewrite andbF. case: glm => [v||] //=. case: (regression _ _ _ _ _ _ _ _) => g i /=. by case: g => // g; case: s2.
Qed.
Lemma interrupted_main o cs1 cs2 s1 s2 st s2' stop :
  let o' := run (rcons cs1 (Fit (true, s1, s2) st) ++ cs2) o in
  o_term o' = true /\ o_bw (fit (false, false, s2') stop o').2 = o_bw o' /\
  (fit (false, false, s2') stop o').1 = (fit (false, false, s2') stop (with_auto false o')).1.
Proof.
move=> o'. have H : o_term o' = true by rewrite /o' run_cat; apply: term_run; rewrite run_rcons.
split=> //. split; [exact: (term_fit _ _ H).2|exact: term_same].
Qed.
End Term.
End P.
