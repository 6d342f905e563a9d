From mathcomp Require Import all_ssreflect all_algebra ring.
From Verif Require Import Outcome GwrModel GwrSpec GwrProofs GwrCases RobFitModel RobFitProofs RobDiag RobCalModel.
Set Implicit Arguments. Unset Strict Implicit. Unset Printing Implicit Defensive.
Import Order.TTheory GRing.Theory Num.Theory.
Local Open Scope ring_scope.

Section G.
Variables (F : realFieldType) (n p : nat).
Variable inv : 'M[F]_p -> option 'M[F]_p.
Lemma masked_ok (x : 'M[F]_(n, p)) y W m s : masked_fit inv x y W m = Ok s -> robust_fit inv x y W m (fun _ => false) = Ok (s, false).
Proof.
rewrite /masked_fit; case E: (robust_fit _ _ _ _ _ _) => [[s' b]||] //= [<-].
have : b = false; last by move=> ->.
move: E; rewrite /robust_fit /fit_core; elim: (range n 0 n) (fit0 F n p) => [|i t IH] s0 /=; first by case.
by case: (fit_step _ _ _ _ _ _ _ _ _) => [s1||] //; apply: IH.
Qed.
Lemma masked_cases (x : 'M[F]_(n, p)) y W m : masked_fit inv x y W m = Throw \/ exists s, masked_fit inv x y W m = Ok s.
Proof.
rewrite /masked_fit /robust_fit /fit_core; elim: (range n 0 n) (fit0 F n p) => [|i t IH] s0 /=; first by right; exists s0.
by rewrite {1 3}/fit_step; case: (inv _) => [B|]; [apply: IH|left].
Qed.
End G.

(** Two runs whose regressions agree mask by mask up to a relation that multiplies the residuals by a constant *)
Section S.
Variables (F : realFieldType) (n p : nat) (inv : 'M[F]_p -> option 'M[F]_p) (sq : F -> F) (c : F).
Hypothesis c0 : c != 0.
Hypothesis sc : forall a, 0 <= a -> sq (c ^+ 2 * a) = `|c| * sq a.
Variables (x x' : 'M[F]_(n, p)) (y y' : 'cV[F]_n) (W : 'I_n -> 'cV[F]_n).
Variable rel : fitted_model F n p -> fitted_model F n p -> Prop.
Definition rel_out (A : Type) (R : A -> A -> Prop) (o o' : outcome A) : Prop :=
  match o, o' with Ok a, Ok a' => R a a' | Throw, Throw => True | _, _ => False end.
Hypothesis fits : forall m, rel_out rel (masked_fit inv x y W m) (masked_fit inv x' y' W m).
Hypothesis relr : forall s s', rel s s' -> residual x' y' s' = c *: residual x y s.
Hypothesis relh : forall s s', rel s s' -> [/\ shat0 s' = shat0 s, shat1 s' = shat1 s & qdiag s' = qdiag s].
Definition rel2 (r r' : fitted_model F n p * seq 'cV[F]_n) := rel r.1 r'.1 /\ r'.2 = r.2.
Let cc : 0 < c ^+ 2. Proof. by rewrite exprn_even_gt0. Qed.
Let cn0 : `|c| != 0. Proof. by rewrite normr_eq0. Qed.
Let c2 v : (c ^+ 2 * v == 0) = (v == 0). Proof. by rewrite mulrI_eq0 //; apply/lregP; rewrite lt0r_neq0. Qed.
Lemma quot r v : 0 <= v -> `|c * r / sq (c ^+ 2 * v)| = `|r / sq v|.
Proof. by move=> v0; rewrite sc // !normrM !normfV normrM normr_id invfM mulrACA divff ?mul1r. Qed.
Lemma mean_scaled (r : 'cV[F]_n) : mean_sq (c *: r) = c ^+ 2 * mean_sq r.
Proof.
rewrite /mean_sq mulrA; congr (_ / _); rewrite mulr_sumr; apply: eq_bigr => i _; rewrite mxE.
by move: (r i ord0) => a; clear; ring.
Qed.
Lemma mean_ge0 (r : 'cV[F]_n) : 0 <= mean_sq r.
Proof. by rewrite divr_ge0 ?ler0n // sumr_ge0 // => i _; rewrite -expr2 sqr_ge0. Qed.
Lemma filt_scaled (r : 'cV[F]_n) : filt_mask sq (c *: r) (mean_sq (c *: r)) = filt_mask sq r (mean_sq r).
Proof.
rewrite mean_scaled; apply/colP => i; rewrite !mxE /filt c2.
by case: eqP => // _; rewrite quot ?mean_ge0.
Qed.
Lemma goes_scaled a b : goes_on (c ^+ 2 * a) (c ^+ 2 * b) = goes_on a b.
Proof.
rewrite /goes_on !c2; case: eqP => // _.
rewrite -mulrBr normrM (gtr0_norm cc) invfM mulrACA divff ?mul1r //.
by rewrite lt0r_neq0.
Qed.
Lemma rss_scaled s s' : rel s s' -> RSS x' y' (betas s') = c ^+ 2 * RSS x y (betas s).
Proof.
move=> /relr H; rewrite /RSS mulr_sumr; apply: eq_bigr => i _.
have /colP /(_ i) := H; rewrite [RHS]mxE /residual => ->.
by rewrite exprMn.
Qed.
Lemma first_scaled s s' : rel s s' -> first_mask sq x' y' s' = first_mask sq x y s.
Proof.
move=> H; have [H0 H1 Hq] := relh H; apply/colP => i; rewrite [LHS]mxE [RHS]mxE H0 H1 Hq (rss_scaled H).
have -> : residual x' y' s' i ord0 = c * residual x y s i ord0 by rewrite (relr H) mxE.
have -> : forall r e q, c ^+ 2 * r / e * q = c ^+ 2 * (r / e * q) by move=> r e q; rewrite !mulrA.
set v := _ / _ * _; rewrite /outlier pmulr_rlt0 // c2 (mulf_eq0 c) (negbTE c0) /=.
by case: (ltrP v 0) => // v0; rewrite quot.
Qed.
Lemma second_scaled k : forall s s' r made more, rel s s' ->
  rel_out rel2 (second_loop inv sq k x y W s (filt_mask sq r (mean_sq r)) (mean_sq r) more made)
               (second_loop inv sq k x' y' W s' (filt_mask sq (c *: r) (mean_sq (c *: r))) (mean_sq (c *: r)) more made).
Proof.
elim: k => [|k IH] s s' r made more H /=; first by split.
case: more => /=; last by split.
rewrite filt_scaled; have := fits (filt_mask sq r (mean_sq r)).
case: (masked_fit inv x y W _) => [t||]; case: (masked_fit inv x' y' W _) => [t'||] //= K.
have -> : goes_on (mean_sq (c *: r)) (mean_sq (residual x' y' t')) = goes_on (mean_sq r) (mean_sq (residual x y t)).
  by rewrite (relr K) !mean_scaled goes_scaled.
by rewrite (relr K); apply: IH.
Qed.
Lemma calibration_scaled filtered :
  rel_out rel2 (calibration inv sq filtered x y W) (calibration inv sq filtered x' y' W).
Proof.
case: filtered => /=.
- rewrite /cali_first; have := fits (const_mx 1).
  case: (masked_fit inv x y W _) => [s||]; case: (masked_fit inv x' y' W _) => [s'||] //= H.
  rewrite (first_scaled H); have := fits (first_mask sq x y s).
  by case: (masked_fit inv x y W _) => [t||]; case: (masked_fit inv x' y' W _) => [t'||].
- rewrite /cali_second; move: 20%N => k; have := fits (const_mx 1).
  case: (masked_fit inv x y W _) => [s||]; case: (masked_fit inv x' y' W _) => [s'||] //= H.
  by rewrite (relr H); apply: second_scaled.
Qed.
End S.

Section R.
Variables (F : realFieldType) (n p : nat) (inv : 'M[F]_p -> option 'M[F]_p) (sq : F -> F).
Hypothesis contract : inverse_contract inv.
Lemma response_fits (x : 'M[F]_(n, p)) y W c (g : 'cV[F]_p) m :
  rel_out (fun s s' => [/\ forall i, col i (betas s') = c *: col i (betas s) + g, shat0 s' = shat0 s, shat1 s' = shat1 s & qdiag s' = qdiag s])
    (masked_fit inv x y W m) (masked_fit inv x (c *: y + x *m g) W m).
Proof.
have [E|[s E]] := masked_cases inv x y W m; rewrite E.
- have [->|[s' E']] // := masked_cases inv x (c *: y + x *m g) W m.
  have [s Es] := okat_y y (masked_ok E').
  by move: E; rewrite /masked_fit /robust_fit Es.
- have Es := masked_ok E; have [sg Eg] := okat_y (x *m g) Es.
  have [s' [E' B]] := C45_linear_main c 1 Es Eg.
  rewrite scale1r in E'; have [A1 A2 A3 _ _] := C44_indep Es E'.
  rewrite /masked_fit /robust_fit E' /=; split=> // i.
  rewrite B linearD !linearZ /= scale1r; congr (_ + _).
  by apply: (C45_exact_main contract Eg); rewrite ltn_ord.
Qed.
Lemma response_main filtered (x : 'M[F]_(n, p)) y W c (g : 'cV[F]_p) : c != 0 -> (forall a, 0 <= a -> sq (c ^+ 2 * a) = `|c| * sq a) ->
  match calibration inv sq filtered x y W with
  | Ok (s, masks) => exists s', calibration inv sq filtered x (c *: y + x *m g) W = Ok (s', masks) /\
      forall i, col i (betas s') = c *: col i (betas s) + g
  | Throw => calibration inv sq filtered x (c *: y + x *m g) W = Throw
  | UB => False
  end.
Proof.
move=> c0 sc; have := @calibration_scaled F n p inv sq c c0 sc x x y (c *: y + x *m g) W _ (response_fits x y W c g) _ _ filtered.
have H1 (s s' : fitted_model F n p) : [/\ forall i, col i (betas s') = c *: col i (betas s) + g, shat0 s' = shat0 s, shat1 s' = shat1 s & qdiag s' = qdiag s] ->
    residual x (c *: y + x *m g) s' = c *: residual x y s.
  case=> B _ _ _; apply/colP => i; rewrite !mxE.
  have -> : \sum_a x i a * betas s' a i = c * (\sum_a x i a * betas s a i) + \sum_a x i a * g a ord0.
    rewrite mulr_sumr -big_split /=; apply: eq_bigr => a _.
    have /colP /(_ a) := B i; rewrite !mxE => ->.
    by move: (x i a) (betas s a i) (g a ord0) => u v w; clear; ring.
  by move: (\sum_a x i a * g a ord0) (\sum_a _) (y i ord0) => u v w; clear; ring.
move/(_ H1 (fun s s' H => And3 (let: And4 _ h _ _ := H in h) (let: And4 _ _ h _ := H in h) (let: And4 _ _ _ h := H in h))).
case: (calibration inv sq filtered x y W) => [[s ms]||]; case: (calibration inv sq filtered x (c *: y + x *m g) W) => [[s' ms']||] //=.
by case=> [[B _ _ _] /= ->]; exists s'.
Qed.
End R.

Section A.
Variables (F : realFieldType) (n p : nat) (sq : F -> F).
Notation inv := (@exact_inv F p).
Lemma recombined_ok (x : 'M[F]_(n, p)) y W m (A : 'M[F]_p) s : A \in unitmx -> masked_fit inv x y W m = Ok s ->
  exists s', masked_fit inv (x *m A) y W m = Ok s'.
Proof.
move=> uA E; have D := fit_core_desc (masked_ok E).
have [s' E'] : exists s', robust_fit inv (x *m A) y W m (fun _ => false) = Ok (s', false).
  apply: fit_total => i _; have : okat inv x (fun i => \col_j (W i j ord0 * m j ord0)) i by apply: (allP (d_ok D)); rewrite in_range ltn_ord.
  rewrite /okat /exact_inv xtw_mul -mulmxA [xtw _ _ *m (_ *m _)]mulmxA !unitmx_mul unitmx_tr uA andbT /=.
  by case: (_ \in unitmx).
by exists s'; rewrite /masked_fit E'.
Qed.
Lemma recombined_fits (x : 'M[F]_(n, p)) y W (A : 'M[F]_p) m : A \in unitmx ->
  rel_out (fun s s' => [/\ betas s' = invmx A *m betas s, Fitted (x *m A) (betas s') = Fitted x (betas s) & [/\ shat0 s' = shat0 s, shat1 s' = shat1 s & qdiag s' = qdiag s]])
    (masked_fit inv x y W m) (masked_fit inv (x *m A) y W m).
Proof.
move=> uA; have [E|[s E]] := masked_cases inv x y W m; rewrite E.
- have [->|[s' E']] // := masked_cases inv (x *m A) y W m.
  have uA' : invmx A \in unitmx by rewrite unitmx_inv.
  have [s] := recombined_ok uA' E'.
  by rewrite mulmxK // E.
- have [s' E'] := recombined_ok uA E; rewrite E' /=.
  have [B [Ft [H0 [H1 [Hq _]]]]] := C46_main (@exact_inv_contract F p) uA (masked_ok E) (masked_ok E').
  by split.
Qed.
Lemma recombined_main filtered (x : 'M[F]_(n, p)) y W (A : 'M[F]_p) : A \in unitmx ->
  match calibration inv sq filtered x y W with
  | Ok (s, masks) => exists s', calibration inv sq filtered (x *m A) y W = Ok (s', masks) /\ betas s' = invmx A *m betas s
  | Throw => calibration inv sq filtered (x *m A) y W = Throw
  | UB => False
  end.
Proof.
move=> uA; have c1 : (1 : F) != 0 := oner_neq0 F.
have sc a : 0 <= a -> sq (1 ^+ 2 * a) = `|1| * sq a by rewrite expr1n normr1 !mul1r.
have Hr (s s' : fitted_model F n p) : [/\ betas s' = invmx A *m betas s, Fitted (x *m A) (betas s') = Fitted x (betas s) & [/\ shat0 s' = shat0 s, shat1 s' = shat1 s & qdiag s' = qdiag s]] ->
    residual (x *m A) y s' = 1 *: residual x y s by case=> _ H _; rewrite scale1r /residual H.
have := @calibration_scaled F n p inv sq 1 c1 sc x (x *m A) y y W _ (fun m => recombined_fits x y W m uA) Hr (fun s s' H => let: And3 _ _ h := H in h) filtered.
case: (calibration inv sq filtered x y W) => [[s ms]||]; case: (calibration inv sq filtered (x *m A) y W) => [[s' ms']||] //=.
by case=> [[B _ _] /= ->]; exists s'.
Qed.
End A.

Section K.
Variables (F : realFieldType) (n p : nat) (inv : 'M[F]_p -> option 'M[F]_p) (sq : F -> F).
Lemma root_scales c : (forall a, 0 <= a -> 0 <= sq a /\ sq a ^+ 2 = a) -> forall a, 0 <= a -> sq (c ^+ 2 * a) = `|c| * sq a.
Proof.
move=> H a a0; have b0 : 0 <= c ^+ 2 * a by rewrite mulr_ge0 ?sqr_ge0.
have [H1 H2] := H _ a0; have [H3 H4] := H _ b0.
by apply/eqP; rewrite -(eqr_expn2 (n := 2)) // ?mulr_ge0 ?normr_ge0 // H4 exprMn H2 real_normK ?num_real.
Qed.
Lemma clean_second (x : 'M[F]_(n, p)) (y : 'cV[F]_n) W s : robust_fit inv x y W (const_mx 1) (fun _ => false) = Ok (s, false) ->
  let r i := y i ord0 - \sum_a x i a * betas s a i in
  let mse := (\sum_i r i ^+ 2) / n%:R in
  0 < mse -> (forall i, `|r i / sq mse| <= 2%:R) ->
  calibration inv sq false x y W = Ok (s, [:: const_mx 1; const_mx 1]).
Proof.
move=> E r mse m0 H; have E' : masked_fit inv x y W (const_mx 1) = Ok s by rewrite /masked_fit E.
have rE i : residual x y s i ord0 = r i by rewrite !mxE.
have mE : mean_sq (residual x y s) = mse by congr (_ / _); apply: eq_bigr => i _; rewrite rE expr2.
have fE : filt_mask sq (residual x y s) mse = const_mx 1.
  by apply/colP => i; rewrite [LHS]mxE [RHS]mxE /filt gt_eqF // rE H.
rewrite /calibration /cali_second E' mE fE.
rewrite /second_loop -/second_loop E' mE fE /goes_on gt_eqF // subrr normr0 mul0r ltNge.
by rewrite divr_ge0 ?ler01 ?ler0n.
Qed.
Lemma loop_extends k (x : 'M[F]_(n, p)) y W : forall s m mse more made s' masks,
  second_loop inv sq k x y W s m mse more made = Ok (s', masks) ->
  exists t, masks = made ++ t /\ (size t <= k)%N /\ (0 < k -> more -> exists t', t = m :: t')%N /\
    (t = [::] -> s' = s) /\ (t <> [::] -> masked_fit inv x y W (last m t) = Ok s').
Proof.
elim: k => [|k IH] s m mse more made s' masks /=.
  by case=> -> ->; exists [::]; rewrite cats0.
case: more; last by case=> -> ->; exists [::]; rewrite cats0.
case E: (masked_fit inv x y W m) => [s1||] //= H.
have [t [-> [S [_ [T0 T1]]]]] := IH _ _ _ _ _ _ _ H.
exists (m :: t); rewrite -cats1 -catA; split=> //; split=> //; split; first by move=> _ _; exists t.
split=> // _; case: t T0 T1 {H S} => [|a t] T0 T1 /=; first by rewrite T0.
exact: T1.
Qed.
Lemma iterative_main (x : 'M[F]_(n, p)) (y : 'cV[F]_n) W s s' masks : robust_fit inv x y W (const_mx 1) (fun _ => false) = Ok (s, false) ->
  let r i := y i ord0 - \sum_a x i a * betas s a i in
  let mse := (\sum_i r i ^+ 2) / n%:R in
  0 < mse -> calibration inv sq false x y W = Ok (s', masks) ->
  exists m rest, [/\ masks = [:: const_mx 1, m & rest], (size masks <= 21)%N,
    robust_fit inv x y W (last m rest) (fun _ => false) = Ok (s', false)
    & forall i, let t := `|r i / sq mse| in
      [/\ t <= 2%:R -> m i ord0 = 1, 2%:R < t -> t < 3%:R -> m i ord0 = (1 - (t - 2%:R) ^+ 2) ^+ 2 & 3%:R <= t -> m i ord0 = 0]].
Proof.
move=> E r mse m0; have E' : masked_fit inv x y W (const_mx 1) = Ok s by rewrite /masked_fit E.
have rE i : residual x y s i ord0 = r i by rewrite !mxE.
have mE : mean_sq (residual x y s) = mse by congr (_ / _); apply: eq_bigr => i _; rewrite rE expr2.
rewrite /calibration /cali_second E' mE => /loop_extends [t [-> [S [T [_ L]]]]].
have [t' tE] := T isT isT; exists (filt_mask sq (residual x y s) mse), t'; rewrite tE in S L *; split=> //; first exact: masked_ok (L _).
move=> i; rewrite mxE rE /filt (gt_eqF m0); set u := `|_|; split.
- by move=> ->.
- by move=> h1 h2; rewrite (lt_geF h1) h2 !expr2.
- move=> h; have h2 : 2%:R < u by apply: lt_le_trans h; rewrite ltr_nat.
  by rewrite (lt_geF h2) (le_gtF h).
Qed.
Lemma clean_first (x : 'M[F]_(n, p)) (y : 'cV[F]_n) W s : robust_fit inv x y W (const_mx 1) (fun _ => false) = Ok (s, false) ->
  let r i := y i ord0 - \sum_a x i a * betas s a i in
  let sigma2 := (\sum_i r i ^+ 2) / (n%:R - 2%:R * shat0 s + shat1 s) in
  (forall i, 0 < sigma2 * qdiag s i ord0 /\ `|r i / sq (sigma2 * qdiag s i ord0)| <= 3%:R) ->
  calibration inv sq true x y W = Ok (s, [:: const_mx 1; const_mx 1]).
Proof.
move=> E r sigma2 H; have E' : masked_fit inv x y W (const_mx 1) = Ok s by rewrite /masked_fit E.
have rE i : residual x y s i ord0 = r i by rewrite !mxE.
have RE : RSS x y (betas s) = \sum_i r i ^+ 2 by apply: eq_bigr => i _; rewrite -rE.
have fE : first_mask sq x y s = const_mx 1.
  apply/colP => i; rewrite [LHS]mxE [RHS]mxE RE rE -/sigma2 /outlier; have [v0 Hi] := H i.
  by rewrite (lt_gtF v0) (gt_eqF v0) (le_gtF Hi) andbF.
by rewrite /calibration /cali_first E' fE E'.
Qed.
Lemma dropped_first (x : 'M[F]_(n, p)) (y : 'cV[F]_n) W s s' masks k : robust_fit inv x y W (const_mx 1) (fun _ => false) = Ok (s, false) ->
  let r i := y i ord0 - \sum_a x i a * betas s a i in
  let sigma2 := (\sum_i r i ^+ 2) / (n%:R - 2%:R * shat0 s + shat1 s) in
  0 < sigma2 * qdiag s k ord0 -> 3%:R < `|r k / sq (sigma2 * qdiag s k ord0)| ->
  calibration inv sq true x y W = Ok (s', masks) ->
  exists m, masks = [:: const_mx 1; m] /\ m k ord0 = 0 /\ robust_fit inv x y W m (fun _ => false) = Ok (s', false).
Proof.
move=> E r sigma2 v0 H; have E' : masked_fit inv x y W (const_mx 1) = Ok s by rewrite /masked_fit E.
have rE i : residual x y s i ord0 = r i by rewrite !mxE.
have RE : RSS x y (betas s) = \sum_i r i ^+ 2 by apply: eq_bigr => i _; rewrite -rE.
rewrite /calibration /cali_first E'; case E2: (masked_fit _ _ _ _ _) => [t||] //= [<- <-].
exists (first_mask sq x y s); split=> //; split; last exact: masked_ok.
rewrite mxE RE rE -/sigma2 /outlier (lt_gtF v0) (gt_eqF v0) H andbT.
case: eqP => // Z; move: v0; by rewrite /sigma2 Z invr0 mulr0 mul0r ltxx.
Qed.
End K.

(** The mean of n observations *)
Section M.
Variables (F : realFieldType) (n : nat) (y : 'cV[F]_n).
Hypothesis n0 : (0 < n)%N.
Let N0 : (n%:R : F) != 0. Proof. by rewrite pnatr_eq0 -lt0n. Qed.
Lemma mean_fit : exists s, [/\ robust_fit (@exact_inv F 1) (const_mx 1) y (fun _ => const_mx 1) (const_mx 1) (fun _ => false) = Ok (s, false),
  forall i, betas s ord0 i = (\sum_j y j ord0) / n%:R, shat0 s = 1, shat1 s = 1 & forall k, qdiag s k ord0 = 1 - n%:R^-1].
Proof.
have S1 : \sum_(j < n) (const_mx 1 : 'cV[F]_n) j ord0 = n%:R.
  by under eq_bigr => j _ do rewrite mxE; rewrite sumr_const card_ord.
have [j||s [[E s0E H _] [B _ _]]] := @enp_main F n y (const_mx 1).
- by right; rewrite mxE.
- by rewrite S1 ltr0n.
rewrite S1 in H B; exists s; split=> //.
- move=> i; rewrite B; congr (_ / _); by apply: eq_bigr => j _; rewrite mxE mul1r.
- by move: H; rewrite /= s0E mulr1 divff // => /addrI /oppr_inj.
pose x : 'M[F]_(n, 1) := const_mx 1; pose W := fun i : 'I_n => \col_j ((const_mx 1 : 'cV[F]_n) j ord0 * (const_mx 1 : 'cV[F]_n) j ord0).
have GK i : (xtw x (W i) *m x) ord0 ord0 = n%:R.
  rewrite mxE; under eq_bigr => j _ do rewrite !mxE !mulr1; by rewrite sumr_const card_ord.
have D := fit_core_desc E.
have ok i : okat (@exact_inv F 1) x W i by apply: (allP (d_ok D)); rewrite in_range ltn_ord.
have BK i : Bof (@exact_inv F 1) x W i ord0 ord0 = n%:R^-1.
  have := Bof_inv (@exact_inv_contract F 1) (ok i) => /matrixP /(_ ord0 ord0).
  by rewrite mxE big_ord_recl big_ord0 addr0 GK [in RHS]mxE /= => K; rewrite -[LHS](mulfK N0) K mul1r.
have SE i j : sof (@exact_inv F 1) x W i ord0 j = n%:R^-1.
  by rewrite /sof !(mxE, big_ord_recl, big_ord0) BK ?(mul1r, mulr1, addr0, add0r).
move=> k; rewrite (d_q D) /= add0r range_full big_enum /= summxE.
transitivity (\sum_(i < n) ((if k == i then 1 - 2%:R * n%:R^-1 else 0) + n%:R^-1 ^+ 2 : F)).
  apply: eq_bigr => i _; rewrite /qof [LHS]mxE; have -> : forall (u v : 'cV[F]_n), (- u + v) k ord0 = - u k ord0 + v k ord0 by move=> u v; rewrite !mxE.
  have -> : forall u : 'rV[F]_n, u^T k ord0 = u ord0 k by move=> u; rewrite mxE.
  rewrite SE mxE; case: eqP => _; move: (n%:R^-1 : F) => a; clear; ring.
rewrite big_split /= -big_mkcond /= (big_pred1 k) => [|i]; last by rewrite /= eq_sym.
have -> : \sum_(i < n) (n%:R^-1 ^+ 2 : F) = n%:R^-1 by rewrite sumr_const card_ord -[_ ^+ 2 *+ n]mulr_natl expr2 mulrA divff // mul1r.
by move: (n%:R^-1 : F) => a; clear; ring.
Qed.
End M.

(** Seventeen observations of which the first is 17 and the others 0; two observations 1 and -1 *)
Definition far : 'cV[rat]_17 := \col_i (if i == ord0 then 17%:R else 0).
Definition quarter (a : rat) : rat := a / 4%:R.
Lemma far_sum : \sum_j far j ord0 = 17%:R.
Proof. by rewrite (bigD1 ord0) //= big1 => [|j /negbTE jn]; rewrite !mxE /= ?eqxx ?addr0 // jn. Qed.
Lemma far_case : exists s s' masks,
  [/\ robust_fit (@exact_inv _ 1) (const_mx 1) far (fun _ => const_mx 1) (const_mx 1) (fun _ => false) = Ok (s, false),
      (\sum_i (far i ord0 - \sum_a (const_mx 1 : 'M_(17, 1)) i a * betas s a i) ^+ 2) / (17%:R - 2%:R * shat0 s + shat1 s) * qdiag s ord0 ord0 = 16%:R,
      far ord0 ord0 - \sum_a (const_mx 1 : 'M_(17, 1)) ord0 a * betas s a ord0 = 16%:R
    & calibration (@exact_inv _ 1) quarter true (const_mx 1) far (fun _ => const_mx 1) = Ok (s', masks)].
Proof.
have [//|s [E B s0 s1 Q]] := @mean_fit _ 17 far.
have R i : far i ord0 - \sum_a (const_mx 1 : 'M[rat]_(17, 1)) i a * betas s a i = far i ord0 - 1.
  by rewrite big_ord_recl big_ord0 addr0 B far_sum [const_mx _ _ _]mxE mul1r divff.
have RS : \sum_i (far i ord0 - \sum_a (const_mx 1 : 'M[rat]_(17, 1)) i a * betas s a i) ^+ 2 = 272%:R.
  rewrite (bigD1 ord0) //= R mxE eqxx.
  have -> : \sum_(i < 17 | i != ord0) (far i ord0 - \sum_a (const_mx 1 : 'M[rat]_(17, 1)) i a * betas s a i) ^+ 2 = \sum_(i < 17 | i != ord0) 1.
    by apply: eq_bigr => i /negbTE iz; rewrite R mxE iz sub0r sqrrN expr1n.
  rewrite sumr_const cardC1 card_ord.
  by apply/eqP; vm_compute.
have V k : (272%:R : rat) / (17%:R - 2%:R * shat0 s + shat1 s) * qdiag s k ord0 = 16%:R.
  by rewrite s0 s1 Q; apply/eqP; vm_compute.
have C : exists r, calibration (@exact_inv _ 1) quarter true (const_mx 1) far (fun _ => const_mx 1) = Ok r.
  rewrite /calibration /cali_first {1}/masked_fit E.
  set m := first_mask _ _ _ _.
  have mE i : m i ord0 = if i == ord0 then 0 else 1.
    rewrite mxE /RSS; have -> : \sum_i0 ((far - Fitted (const_mx 1) (betas s)) i0 ord0) ^+ 2 = 272%:R.
      by rewrite -[RHS]RS; apply: eq_bigr => j _; rewrite !mxE.
    rewrite V; have -> : residual (const_mx 1) far s i ord0 = far i ord0 - 1 by rewrite -R !mxE.
    by rewrite s0 s1 mxE; case: (i == ord0); vm_compute.
  have [i||t [[Et _ _ _] _]] := @enp_main _ 17 far m.
  - by rewrite mE; case: ifP; [left|right].
  - have -> : \sum_j m j ord0 = \sum_(i < 17 | i != ord0) 1.
      rewrite (bigD1 ord0 isT) [LHS]/=; have -> : m ord0 ord0 = 0 by rewrite mE eqxx.
      rewrite add0r; by apply: eq_bigr => i /negbTE iz; rewrite mE iz.
    by rewrite sumr_const cardC1 card_ord ltr0n.
  by rewrite /masked_fit Et; eexists.
have [[s' masks] Ec] := C; exists s, s', masks; split.
- exact: E.
- rewrite RS; exact: V.
- rewrite R mxE eqxx; by apply/eqP; vm_compute.
- exact: Ec.
Qed.
Definition pair_y : 'cV[rat]_2 := \col_i (if i == ord0 then 1 else -1).
Lemma pair_case : exists s,
  [/\ robust_fit (@exact_inv _ 1) (const_mx 1) pair_y (fun _ => const_mx 1) (const_mx 1) (fun _ => false) = Ok (s, false),
      (\sum_i (pair_y i ord0 - \sum_a (const_mx 1 : 'M_(2, 1)) i a * betas s a i) ^+ 2) / 2%:R = 1,
      forall i, (\sum_i (pair_y i ord0 - \sum_a (const_mx 1 : 'M_(2, 1)) i a * betas s a i) ^+ 2) / (2%:R - 2%:R * shat0 s + shat1 s) * qdiag s i ord0 = 1
    & forall i, `|pair_y i ord0 - \sum_a (const_mx 1 : 'M_(2, 1)) i a * betas s a i| = 1].
Proof.
have [//|s [E B s0 s1 Q]] := @mean_fit _ 2 pair_y.
have R i : pair_y i ord0 - \sum_a (const_mx 1 : 'M[rat]_(2, 1)) i a * betas s a i = pair_y i ord0.
  rewrite big_ord_recl big_ord0 addr0 B [const_mx _ _ _]mxE mul1r.
  have -> : \sum_j pair_y j ord0 = 0 by rewrite !big_ord_recl big_ord0 !mxE; apply/eqP; vm_compute.
  by rewrite mul0r subr0.
have RS : \sum_i (pair_y i ord0 - \sum_a (const_mx 1 : 'M[rat]_(2, 1)) i a * betas s a i) ^+ 2 = 2%:R.
  under eq_bigr => i _ do rewrite R mxE.
  by rewrite !big_ord_recl big_ord0; apply/eqP; vm_compute.
exists s; rewrite RS; split.
- exact: E.
- by apply/eqP; vm_compute.
- by move=> i; rewrite s0 s1 Q; apply/eqP; vm_compute.
- by move=> i; rewrite R mxE; case: ifP => _; rewrite ?normrN normr1.
Qed.
Lemma quarter16 : quarter 16%:R = 4%:R.
Proof. by apply/eqP; vm_compute. Qed.
