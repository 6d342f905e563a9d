(** How far local coefficients move when the weights do. *)
From mathcomp Require Import all_ssreflect all_algebra ring.
From Verif Require Import Outcome GwrModel GwrSpec GwrProofs GwrCases MsUni.
Set Implicit Arguments. Unset Strict Implicit. Unset Printing Implicit Defensive.
Import Order.TTheory GRing.Theory Num.Theory.
Local Open Scope ring_scope.

Section C.
Variable F : realFieldType.
Lemma wcauchy (I : finType) (w a b : I -> F) : (forall i, 0 <= w i) ->
  (\sum_i w i * a i * b i) ^+ 2 <= (\sum_i w i * a i ^+ 2) * (\sum_i w i * b i ^+ 2).
Proof.
move=> w0; set A := \sum_i w i * a i ^+ 2; set B := \sum_i w i * b i ^+ 2; set C := \sum_i w i * a i * b i.
have S0 (c : I -> F) i : 0 <= w i * c i ^+ 2 by rewrite mulr_ge0 ?sqr_ge0.
have B0 : 0 <= B by apply: sumr_ge0 => i _; apply: S0.
have H : B * (A * B - C ^+ 2) = \sum_i w i * (B * a i - C * b i) ^+ 2.
  transitivity (B ^+ 2 * A + (- 2%:R * B * C) * C + C ^+ 2 * B); first by ring.
  rewrite [X in X + _ + _]mulr_sumr [X in _ + X + _]mulr_sumr [X in _ + X]mulr_sumr -!big_split /=; apply: eq_bigr => i _; by ring.
have H0 : 0 <= B * (A * B - C ^+ 2) by rewrite H; apply: sumr_ge0 => i _; apply: (S0 (fun i => B * a i - C * b i)).
case: (eqVneq B 0) => [E|N]; last by move: H0; rewrite pmulr_rge0 ?subr_ge0 // lt_def N B0.
have b0 i : w i * b i = 0.
  have := psumr_eq0P (P := predT) (F := fun i => w i * b i ^+ 2) (fun i _ => S0 b i) E => /(_ i isT) /eqP.
  by rewrite mulf_eq0 sqrf_eq0 => /orP[/eqP ->|/eqP ->]; rewrite ?mul0r ?mulr0.
by rewrite E mulr0 /C big1 ?expr0n //= => i _; rewrite mulrAC b0 mul0r.
Qed.
Variables (n p : nat) (x : 'M[F]_(n, p)) (y : 'cV[F]_n) (w w' : 'cV[F]_n) (b b' : 'cV[F]_p) (d : F).
Hypothesis w0 : forall j, 0 <= w j ord0.
Hypothesis d01 : 0 <= d < 1.
Hypothesis near : forall j, `|w' j ord0 - w j ord0| <= d * w j ord0.
Hypothesis S : solves x y w b.
Hypothesis S' : solves x y w' b'.
Lemma move_main : (1 - d) ^+ 2 * (\sum_j w j ord0 * (x *m (b' - b)) j ord0 ^+ 2) <= d ^+ 2 * wrss x y w b.
Proof.
pose z j := (x *m (b' - b)) j ord0; pose r j := y j ord0 - (x *m b) j ord0.
have O := solves_orth (b' - b) S; have O' := solves_orth (b' - b) S'.
set Z := \sum_j _ * _ ^+ 2.
have Z0 : 0 <= Z by apply: sumr_ge0 => j _; rewrite mulr_ge0 ?sqr_ge0.
have Ez j : (x *m b') j ord0 = (x *m b) j ord0 + z j by rewrite /z mulmxBr [(x *m b' - _) _ _]mxE [(- (x *m b)) _ _]mxE addrC subrK.
have E : \sum_j w' j ord0 * z j ^+ 2 = \sum_j (w' j ord0 - w j ord0) * r j * z j.
  have -> : \sum_j (w' j ord0 - w j ord0) * r j * z j = \sum_j w' j ord0 * r j * z j.
    transitivity (\sum_j w' j ord0 * r j * z j - \sum_j w j ord0 * r j * z j); last by rewrite [X in _ - X]O subr0.
    by rewrite -sumrB; apply: eq_bigr => j _; rewrite mulrBl mulrBl.
  apply/eqP; rewrite eq_sym -subr_eq0 -sumrB; apply/eqP; rewrite -[RHS]O'; apply: eq_bigr => j _.
  rewrite Ez /r -/(z j); move: (z j) => c; gring.
have L : (1 - d) * Z <= \sum_j w' j ord0 * z j ^+ 2.
  rewrite mulr_sumr; apply: ler_sum => j _; rewrite mulrA; apply: ler_wpmul2r; first exact: sqr_ge0.
  by rewrite mulrBl mul1r ler_subl_addr -ler_subl_addl; move: (near j); rewrite distrC ler_norml => /andP[].
have U : (\sum_j (w' j ord0 - w j ord0) * r j * z j) ^+ 2 <= d ^+ 2 * wrss x y w b * Z.
  pose e j := if w j ord0 == 0 then 0 else (w' j ord0 - w j ord0) / w j ord0.
  have We j : w' j ord0 - w j ord0 = w j ord0 * e j.
    rewrite /e; case: eqP => [E0|/eqP N]; last by rewrite mulrCA mulfV ?mulr1.
    by rewrite mulr0; move: (near j); rewrite E0 mulr0 subr0 normr_le0 => /eqP.
  have e2 j : w j ord0 * e j ^+ 2 <= w j ord0 * d ^+ 2.
    apply: ler_wpmul2l => //; rewrite /e; case: eqP => [_|/eqP N]; first by rewrite expr0n /= sqr_ge0.
    have P : 0 < w j ord0 by rewrite lt_def N w0.
    rewrite -real_normK ?num_real // ler_sqr ?nnegrE ?normr_ge0 //; last by case/andP: d01.
    by rewrite normrM normfV (gtr0_norm P) ler_pdivr_mulr.
  have -> : \sum_j (w' j ord0 - w j ord0) * r j * z j = \sum_j w j ord0 * (e j * r j) * z j.
    by apply: eq_bigr => j _; rewrite We !mulrA.
  apply: le_trans (wcauchy _ _ w0) _; apply: ler_wpmul2r => //.
  rewrite /wrss mulr_sumr; apply: ler_sum => j _; rewrite -/(r j).
  rewrite (_ : w j ord0 * (e j * r j) ^+ 2 = w j ord0 * e j ^+ 2 * r j ^+ 2); last by move: (r j) (e j) => ? ?; gring.
  rewrite (_ : d ^+ 2 * _ = w j ord0 * d ^+ 2 * r j ^+ 2); last by move: (r j) => ?; gring.
  by apply: ler_wpmul2r; [exact: sqr_ge0|exact: e2].
have d1 : 0 <= 1 - d by rewrite subr_ge0; case/andP: d01 => _ /ltW.
have Q : ((1 - d) * Z) ^+ 2 <= d ^+ 2 * wrss x y w b * Z.
  apply: le_trans U; rewrite -E ler_sqr ?nnegrE ?mulr_ge0 //; apply: le_trans L; exact: mulr_ge0.
case: (eqVneq Z 0) => [->|N]; last first.
  have P : 0 < Z by rewrite lt_def N Z0.
  by rewrite -(ler_pmul2r P) -mulrA -expr2 -exprMn.
rewrite mulr0 mulr_ge0 ?sqr_ge0 //; apply: sumr_ge0 => j _; by rewrite mulr_ge0 ?sqr_ge0.
Qed.
End C.

(** ** Fits *)
Section Fit.
Variables (F : realFieldType) (n p : nat) (inv : 'M[F]_p -> option 'M[F]_p).
Hypothesis contract : inverse_contract inv.
Lemma fit_solves storeS storeC lo hi x y (W : 'I_n -> 'cV[F]_n) s :
  fit_core inv storeS storeC lo hi x y W (fun _ => false) = Ok (s, false) ->
  forall i : 'I_n, (lo <= i < hi)%N -> solves x y (W i) (col i (betas s)).
Proof.
move/fit_core_desc => D i; rewrite -in_range => ir; rewrite (d_betas D ir).
by apply: Bof_solves => //; apply: (allP (d_ok D) i ir).
Qed.
Lemma sensitivity_main storeS storeC lo hi (x : 'M[F]_(n, p)) y (W W' : 'I_n -> 'cV[F]_n) s s' (i : 'I_n) d :
  fit_core inv storeS storeC lo hi x y W (fun _ => false) = Ok (s, false) ->
  fit_core inv storeS storeC lo hi x y W' (fun _ => false) = Ok (s', false) ->
  (lo <= i < hi)%N -> (forall j, 0 <= W i j ord0) -> 0 <= d < 1 ->
  (forall j, `|W' i j ord0 - W i j ord0| <= d * W i j ord0) ->
  (1 - d) ^+ 2 * (\sum_j W i j ord0 * (x *m (col i (betas s') - col i (betas s))) j ord0 ^+ 2) <= d ^+ 2 * wrss x y (W i) (col i (betas s)).
Proof.
move=> E E' ir w0 d01 near.
exact: (move_main w0 d01 near (fit_solves E ir) (fit_solves E' ir)).
Qed.
Lemma xtw_ones (x : 'M[F]_(n, p)) : xtw x (const_mx 1) = x^T.
Proof. by apply/matrixP => a j; rewrite !mxE mulr1. Qed.
Lemma global_solves (x : 'M[F]_(n, p)) y b : x^T *m (y - x *m b) = 0 -> solves x y (const_mx 1) b.
Proof. by rewrite /solves xtw_ones mulmxBr => /eqP; rewrite subr_eq0 eq_sym => /eqP. Qed.
Lemma global_main storeS storeC lo hi (x : 'M[F]_(n, p)) y (W : 'I_n -> 'cV[F]_n) s (b : 'cV[F]_p) d (i : 'I_n) :
  x^T *m (y - x *m b) = 0 ->
  fit_core inv storeS storeC lo hi x y W (fun _ => false) = Ok (s, false) ->
  (lo <= i < hi)%N -> 0 <= d < 1 -> (forall j, `|W i j ord0 - 1| <= d) ->
  (1 - d) ^+ 2 * (\sum_j (x *m (col i (betas s) - b)) j ord0 ^+ 2) <= d ^+ 2 * \sum_j (y - x *m b) j ord0 ^+ 2.
Proof.
move=> Hb E ir d01 near.
have N j : `|W i j ord0 - (const_mx 1 : 'cV[F]_n) j ord0| <= d * (const_mx 1 : 'cV[F]_n) j ord0 by rewrite mxE mulr1.
have O j : 0 <= (const_mx 1 : 'cV[F]_n) j ord0 by rewrite mxE ler01.
have := move_main O d01 N (global_solves Hb) (fit_solves E ir); congr (_ * _ <= _ * _).
  by apply: eq_bigr => j _; rewrite [const_mx 1 _ _]mxE mul1r.
apply: eq_bigr => j _; rewrite [const_mx 1 _ _]mxE mul1r; congr (_ ^+ 2).
by rewrite [RHS]mxE [X in _ = _ + X]mxE.
Qed.
Lemma limit_main storeS storeC lo hi (x : 'M[F]_(n, p)) y (b : 'cV[F]_p) (e : F) :
  (forall v : 'cV[F]_p, x *m v = 0 -> v = 0) -> x^T *m (y - x *m b) = 0 -> 0 < e ->
  exists2 d, 0 < d & forall (W : 'I_n -> 'cV[F]_n) s (i : 'I_n),
  fit_core inv storeS storeC lo hi x y W (fun _ => false) = Ok (s, false) ->
  (lo <= i < hi)%N -> (forall j, `|W i j ord0 - 1| <= d) -> forall a, `|betas s a i - b a ord0| <= e.
Proof.
move=> /left_inverse [L HL] Hb e0.
set R := \sum_j (y - x *m b) j ord0 ^+ 2.
have R0 : 0 <= R by apply: sumr_ge0 => j _; apply: sqr_ge0.
have l0 := lsize_ge0 L.
pose Q := 4%:R * lsize L * R + 1.
have Q0 : 0 < Q by rewrite ltr_paddl ?ltr01 // !mulr_ge0 ?ler0n.
pose d := Num.min (2%:R^-1) (e ^+ 2 / Q).
have d0 : 0 < d by rewrite /d lt_minr invr_gt0 ltr0n divr_gt0 ?exprn_gt0.
have d1 : d <= 2%:R^-1 by rewrite /d le_minl lexx.
have d2 : d * Q <= e ^+ 2 by rewrite -ler_pdivl_mulr // /d le_minl lexx orbT.
have dl : 0 <= d < 1.
  by rewrite (ltW d0) /=; apply: le_lt_trans d1 _; rewrite invf_lt1 ?ltr0n // ltr1n.
exists d => // W s i E ir near a.
have G := global_main Hb E ir dl near; rewrite -/R in G.
set Z := \sum_j _ in G.
have B : (betas s a i - b a ord0) ^+ 2 <= lsize L * Z.
  apply: le_trans (left_bound HL (col i (betas s) - b)).
  rewrite (bigD1 a) //= !mxE ler_addl; apply: sumr_ge0 => k _; exact: sqr_ge0.
have Z4 : Z <= 4%:R * (d ^+ 2 * R).
  have P : 1 <= 4%:R * (1 - d) ^+ 2.
    rewrite (_ : 4%:R * _ = (2%:R * (1 - d)) ^+ 2); last by ring.
    rewrite -[X in X <= _](expr1n _ 2) ler_sqr ?nnegrE ?ler01 //.
      rewrite mulrBr mulr1 ler_subr_addl -ler_subr_addr (_ : 2%:R - 1 = 1); last by ring.
      by rewrite -ler_pdivl_mull ?ltr0n // mulr1.
    by rewrite mulr_ge0 ?ler0n // subr_ge0; case/andP: dl => _ /ltW.
  apply: le_trans (_ : _ <= 4%:R * ((1 - d) ^+ 2 * Z)) _; last by apply: ler_wpmul2l => //; rewrite ler0n.
  by rewrite mulrA ler_pemull //; apply: sumr_ge0 => j _; apply: sqr_ge0.
rewrite -ler_sqr ?nnegrE ?normr_ge0 ?(ltW e0) // real_normK ?num_real //.
apply: le_trans B _; apply: le_trans (ler_wpmul2l l0 Z4) _; apply: le_trans d2.
rewrite (_ : lsize L * _ = d * (d * (4%:R * lsize L * R))); last by ring.
apply: ler_wpmul2l; first exact: ltW.
apply: le_trans (_ : _ <= 4%:R * lsize L * R) _; last by rewrite ler_addl ler01.
by apply: ler_pimull; rewrite ?mulr_ge0 ?ler0n // ltW //; case/andP: dl.
Qed.
End Fit.
