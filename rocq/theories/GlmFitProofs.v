From mathcomp Require Import all_ssreflect all_algebra.
From Verif Require Import Outcome GwrModel GwrSpec GwrProofs GwrCases GlmModel GlmFitModel.
Set Implicit Arguments. Unset Strict Implicit. Unset Printing Implicit Defensive.
Import Order.TTheory GRing.Theory Num.Theory.
Local Open Scope ring_scope.

Section P.
Variables (F : realFieldType) (n p : nat) (inv : 'M[F]_p -> option 'M[F]_p) (x : 'M[F]_(n, p)).
Variables (fam : family) (W1 W2 : 'I_n -> 'cV[F]_n) (w2 z : 'cV[F]_n).
Let W i := times (local_weights fam true W1 W2 i) w2.

(** The loop of the hat matrix branch in terms of that of basic GWR *)
Lemma hat_loop : forall idx (st : gfit F n p) (s : fitted_model F n p),
  correct st -> gbetas st = betas s -> tr0 st = shat0 s -> tr1 st = shat1 s ->
  let r := ggwr_loop (ggwr_step inv x fam true W1 W2 w2 z) (fun _ => false) idx st in
  match loop (fit_step inv true false 0 x z W) (fun _ => false) idx s with
  | Ok (s', b) => [/\ correct r, gbetas r = betas s', tr0 r = shat0 s', tr1 r = shat1 s' & b = false]
  | _ => ~~ correct r
  end.
Proof.
have bad : forall idx st, ~~ correct st -> ~~ correct (ggwr_loop (ggwr_step inv x fam true W1 W2 w2 z) (fun _ => false) idx st).
  elim=> [|i t IH] st //= H. apply: IH. rewrite /ggwr_step. by case: (gwFit _ _ _ _ _) => [[[b c] r]|].
elim=> [|i t IH] st s C B T0 T1 //.
rewrite [ggwr_loop _ _ _ _]/= [loop _ _ _ _]/=.
case E: (inv (xtw x (W i) *m x)) => [V|]; last first.
  rewrite [fit_step _ _ _ _ _ _ _ i s]/fit_step E. apply: bad.
  by rewrite /ggwr_step /gwFit -/(W i) E.
rewrite [fit_step _ _ _ _ _ _ _ i s]/fit_step E /gwFit -/(W i) E.
by apply: IH => //=; rewrite ?B ?T0 ?T1.
Qed.
Lemma hat_fit m0 : match fit_core inv true false 0 n x z W (fun _ => false) with
  | Ok (s, b) => b = false /\ exists st, [/\ ggwr_fit inv x fam true W1 W2 w2 z (fun _ => false) m0 = Ok st,
      gbetas st = betas s, tr0 st = shat0 s & tr1 st = shat1 s]
  | _ => ggwr_fit inv x fam true W1 W2 w2 z (fun _ => false) m0 = Throw
  end.
Proof.
rewrite /fit_core /ggwr_fit range_full. have := @hat_loop (enum 'I_n) (Gfit 0 m0 0 0 0 true) (fit0 F n p) isT erefl erefl erefl.
case: (loop _ _ _ _) => [[s b]||] /=.
- move=> [C B T0 T1 bf]. rewrite C. by split=> //; eexists; split.
- by move/negbTE=> ->.
- by move/negbTE=> ->.
Qed.

(** Standard errors *)
Lemma se_loop : forall idx (st : gfit F n p), uniq idx ->
  let r := ggwr_loop (ggwr_step inv x fam true W1 W2 w2 z) (fun _ => false) idx st in
  correct r ->
  (forall i, i \in idx -> exists2 V, inv (xtw x (W i) *m x) = Some V &
     forall a, gse2 r a i = \sum_j (V *m xtw x (W i)) a j * (w2 j ord0)^-1 * (V *m xtw x (W i)) a j) /\
  (forall i, i \notin idx -> forall a, gse2 r a i = gse2 st a i).
Proof.
have bad : forall idx st, ~~ correct st -> ~~ correct (ggwr_loop (ggwr_step inv x fam true W1 W2 w2 z) (fun _ => false) idx st).
  elim=> [|i t IH] st //= H. apply: IH. rewrite /ggwr_step. by case: (gwFit _ _ _ _ _) => [[[b c] r]|].
elim=> [|i t IH] st //= /andP [Nt U]. rewrite /gwFit -/(W i).
case E: (inv (xtw x (W i) *m x)) => [V|]; last first.
  move=> H. by have := bad t (failed st) isT; rewrite H.
move=> H. have [A B] := IH _ U H. split=> k.
- rewrite inE. case: (altP (k =P i)) => [->|ki] /=; last by apply: A.
  move=> _. exists V => // a. by rewrite (B i Nt) /set_col mxE eqxx mxE.
- rewrite inE negb_or => /andP [ki kt] a. by rewrite (B k kt) /set_col mxE (negbTE ki).
Qed.

Hypothesis IC : inverse_contract inv.
Lemma C67_fit_main m0 st :
  ggwr_fit inv x fam true W1 W2 w2 z (fun _ => false) m0 = Ok st ->
  (forall i, (forall j, 0 <= W i j ord0) -> only_minimiser x z (W i) (col i (gbetas st))) /\
  exists S : 'M[F]_n, [/\ (forall i, \sum_a x i a * gbetas st a i = (S *m z) i ord0),
    tr0 st = \tr S & tr1 st = \tr (S^T *m S)].
Proof.
have := hat_fit m0. case E: (fit_core _ _ _ _ _ _ _ _ _) => [[s b]||]; try by move=> ->.
case=> bf. rewrite {b}bf in E. case=> st' [-> B T0 T1] [<-]. split.
  move=> i Wi. rewrite B. apply: (C43_main IC E) => //. exact: ltn_ord.
exists (stored s). have [A0 A1 A2 _] := C44_sum E. split=> //; last 2 first.
- by rewrite T0.
- by rewrite T1.
by move=> i; rewrite B.
Qed.
Lemma C67_se_main m0 st :
  ggwr_fit inv x fam true W1 W2 w2 z (fun _ => false) m0 = Ok st -> forall i,
  exists C : 'M[F]_(p, n), [/\ col i (gbetas st) = C *m z, C *m x = 1%:M &
    forall a, gse2 st a i = (C *m diag_mx (\row_j (w2 j ord0)^-1) *m C^T) a a].
Proof.
move=> H i. have := hat_fit m0. case E: (fit_core _ _ _ _ _ _ _ _ _) => [[s b]||]; try by rewrite H.
case=> bf. rewrite {b}bf in E. case=> st' [H' B _ _]. rewrite H in H'. case: H' => H'.
rewrite -{st'}H' in B.
move: H. rewrite /ggwr_fit. case: ifP => // Cr [Est].
have [A _] := @se_loop (enum 'I_n) (Gfit 0 m0 0 0 0 true) (enum_uniq _) Cr.
rewrite Est in A. have [V EV SE] := A i (mem_enum _ _).
exists (V *m xtw x (W i)). split.
- rewrite B (d_betas (fit_core_desc E)); last by rewrite range_full mem_enum.
  by rewrite /Bof EV mulmxA.
- by rewrite -mulmxA; apply: IC.
- move=> a. rewrite SE [RHS]mxE. apply: eq_bigr => j _. rewrite mul_mx_diag !mxE. by [].
Qed.

Lemma C67_fails_main m0 :
  ggwr_fit inv x fam true W1 W2 w2 z (fun _ => false) m0 = Throw <-> exists i, inv (xtw x (W i) *m x) = None.
Proof.
split=> [H|[i Hi]].
- case: (pickP [pred i | inv (xtw x (W i) *m x) == None]) => [i /eqP Hi|Hn]; first by exists i.
  have [s Es] : exists s, fit_core inv true false 0 n x z W (fun _ => false) = Ok (s, false).
    apply: fit_total => i _ Hi. by have := Hn i; rewrite /= Hi eqxx.
  have := hat_fit m0. rewrite Es. by case=> _ [st [Q _ _ _]]; rewrite H in Q.
- case E: (ggwr_fit _ _ _ _ _ _ _ _ _ _) => [st||] //.
  + move: E. rewrite /ggwr_fit. case: ifP => // Cr _.
    have [A _] := @se_loop (enum 'I_n) (Gfit 0 m0 0 0 0 true) (enum_uniq _) Cr.
    have [V EV _] := A i (mem_enum _ _). by rewrite Hi in EV.
  + move: E. rewrite /ggwr_fit. by case: ifP.
Qed.
End P.

Section Q.
Variables (F : realFieldType) (n p : nat) (inv : 'M[F]_p -> option 'M[F]_p) (x : 'M[F]_(n, p)).
Lemma C67_predict_main fam W1 W2 score m0 m (locations : 'M[F]_(m, 2)) :
  (1 < n)%N -> score <> UB -> ggwr_predict inv x fam W1 W2 score m0 locations = Throw.
Proof.
move=> Ln. case: score => [[w z]||] //= _. rewrite /ggwr_fit.
have N1 : (n == 1%N) = false by case: n Ln => [|[|k]].
have step st i : ~~ correct (ggwr_step inv x fam false W1 W2 w z i st).
  by rewrite /ggwr_step /matrix_product N1.
have bad : forall idx st, ~~ correct st ->
  ~~ correct (ggwr_loop (ggwr_step inv x fam false W1 W2 w z) (fun _ => false) idx st).
  elim=> [|i t IH] st //= H. by apply: IH; apply: step.
have i0 : 'I_n := Ordinal (ltnW Ln).
case Ee: (enum 'I_n) => [|i t].
  by have := mem_enum 'I_n i0; rewrite Ee in_nil inE.
have /negbTE -> // := bad t _ (step (Gfit 0 m0 0 0 0 true) i).
Qed.
Lemma C67_binomial_main W1 W2 score m0 m (locations : 'M[F]_(m, 2)) b :
  ggwr_predict inv x Binomial W1 W2 score m0 locations = Ok b -> b = 0.
Proof.
case: score => [[w z]||] //=. rewrite /ggwr_fit. case: ifP => // _ [<-].
have Z : forall idx st, gbetas st = 0 ->
  gbetas (ggwr_loop (ggwr_step inv x Binomial false W1 W2 w z) (fun _ => false) idx st) = 0.
  elim=> [|i t IH] st //= H. apply: IH. case: (matrix_product _ _) => [v|] //. by case: (gwPredict _ _ _ _).
exact: Z.
Qed.
End Q.

(** Examples *)
Definition ex_w2 : 'cV[rat]_2 := \col_i (if i == ord0 then 2%:R else 1).
Lemma ex_gfit fam m0 : exists st, ggwr_fit (@exact_inv _ 1) ex_x fam true ex_W ex_W ex_w2 ex_y (fun _ => false) m0 = Ok st.
Proof.
case E: (ggwr_fit _ _ _ _ _ _ _ _ _ _) => [st||]; first by exists st.
- have [i] := (C67_fails_main _ _ _ _ _ _ _ m0).1 E.
  move=> H; exfalso; move: H; apply: ex_inv. rewrite !mxE /local_weights. by case: fam {E}; case: i => [[|[|]]] ? //; rewrite !mxE.
- by move: E; rewrite /ggwr_fit; case: ifP.
Qed.
Lemma ex_gfit_fails m0 : ggwr_fit (@exact_inv _ 1) ex_x Poisson true (fun _ => 0) (fun _ => 0) ex_w2 ex_y (fun _ => false) m0 = Throw.
Proof.
apply/C67_fails_main. exists ord0. rewrite /exact_inv.
have -> : xtw ex_x (times (local_weights Poisson true (fun _ => 0) (fun _ => 0) ord0) ex_w2) *m ex_x = 0.
  apply/matrixP => a b. rewrite mxE big1 ?mxE // => j _. by rewrite !mxE mul0r mulr0 mul0r.
by rewrite unitmxE det0 // unitr0.
Qed.

Lemma ex_predict : exists b,
  ggwr_predict (@exact_inv [realFieldType of rat] 1) (1 : 'M_1) Binomial (fun _ => 1) (fun _ => 1) (Ok (1, 1)) 0 (0 : 'M_(1, 2)) = Ok b.
Proof.
rewrite /ggwr_predict /= /ggwr_fit enum_ordSl enum_ord0 /= /matrix_product /= /gwPredict.
have -> : xtw (1 : 'M[rat]_1) (times 1 1) *m 1 = 1%:M.
  apply/matrixP => i j. rewrite mulmx1 !mxE !ord1 !eqxx /=. by rewrite !mul1r.
rewrite /exact_inv unitmx1 /=. by eexists.
Qed.

Section R.
Variables (F : realFieldType) (n p : nat) (inv : 'M[F]_p -> option 'M[F]_p) (x : 'M[F]_(n, p)).
Variables (fam : family) (W : 'I_n -> 'cV[F]_n) (w2 z : 'cV[F]_n) (m0 : 'M[F]_(p, n)).
Lemma same_weights i : local_weights fam true W W i = W i.
Proof. by rewrite /local_weights; case: fam. Qed.
Lemma C67_fit_same st : inverse_contract inv ->
  ggwr_fit inv x fam true W W w2 z (fun _ => false) m0 = Ok st ->
  (forall i, (forall j, 0 <= W i j ord0 * w2 j ord0) ->
     only_minimiser x z (\col_j (W i j ord0 * w2 j ord0)) (col i (gbetas st))) /\
  exists S : 'M[F]_n, [/\ (forall i, \sum_a x i a * gbetas st a i = (S *m z) i ord0),
    tr0 st = \tr S & tr1 st = \tr (S^T *m S)].
Proof.
move=> IC H. have [A B] := C67_fit_main IC H. split=> // i Hi. have := A i. rewrite same_weights. apply=> j. by rewrite mxE.
Qed.
Lemma xtw_diag (w : 'cV[F]_n) : xtw x w = x^T *m diag_mx (\row_j w j ord0).
Proof. by apply/matrixP => a j; rewrite mul_mx_diag !mxE. Qed.
Lemma C67_fails_same :
  ggwr_fit inv x fam true W W w2 z (fun _ => false) m0 = Throw <->
  exists i, inv (x^T *m diag_mx (\row_j (W i j ord0 * w2 j ord0)) *m x) = None.
Proof.
have E i : xtw x (times (local_weights fam true W W i) w2) = x^T *m diag_mx (\row_j (W i j ord0 * w2 j ord0)).
  rewrite same_weights xtw_diag. congr (_ *m diag_mx _). by apply/rowP => j; rewrite !mxE.
rewrite C67_fails_main. by split=> [[i Hi]|[i Hi]]; exists i; rewrite ?E // -E.
Qed.
End R.
