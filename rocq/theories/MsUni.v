(** Backfitting with equal weights: cyclic projection, linear convergence to least squares. *)
From mathcomp Require Import all_ssreflect all_algebra ring.
From Verif Require Import Outcome GwrModel GwrSpec GwrProofs MsModel MsSpec MsProofs MsCases MsTrace MsConvSpec MsConvMain.
Set Implicit Arguments. Unset Strict Implicit. Unset Printing Implicit Defensive.
Import Order.TTheory GRing.Theory Num.Theory.
Local Open Scope ring_scope.

Section C.
Variable F : realFieldType.
Lemma cauchy (I : finType) (a b : I -> F) : (\sum_i a i * b i) ^+ 2 <= (\sum_i a i ^+ 2) * (\sum_i b i ^+ 2).
Proof.
set A := \sum_i a i ^+ 2; set B := \sum_i b i ^+ 2; set C := \sum_i a i * b i.
have B0 : 0 <= B by apply: sumr_ge0 => i _; apply: sqr_ge0.
have H : B * (A * B - C ^+ 2) = \sum_i (B * a i - C * b i) ^+ 2.
  transitivity (B ^+ 2 * A - 2%:R * B * C * C + C ^+ 2 * B); first by ring.
  transitivity (B ^+ 2 * A + (- 2%:R * B * C) * C + C ^+ 2 * B); first by ring.
  rewrite [X in X + _ + _]mulr_sumr [X in _ + X + _]mulr_sumr [X in _ + X]mulr_sumr -!big_split /=; apply: eq_bigr => i _; by ring.
have H0 : 0 <= B * (A * B - C ^+ 2) by rewrite H; apply: sumr_ge0 => i _; apply: sqr_ge0.
case: (eqVneq B 0) => [E|N]; last by move: H0; rewrite pmulr_rge0 ?subr_ge0 // lt_def N B0.
have b0 i : b i = 0.
  apply/eqP; rewrite -sqrf_eq0; have := psumr_eq0P (P := predT) (F := fun i => b i ^+ 2) _ E.
  by move=> -> // k _; apply: sqr_ge0.
by rewrite E mulr0 /C big1 ?expr0n //= => i _; rewrite b0 mulr0.
Qed.

Variable n : nat.
Implicit Types u v : 'cV[F]_n.
Definition dot u v : F := \sum_a u a ord0 * v a ord0.
Definition nn v : F := \sum_a v a ord0 ^+ 2.
Lemma nnE v : nn v = dot v v. Proof. by apply: eq_bigr => a _; rewrite expr2. Qed.
Lemma nn_ge0 v : 0 <= nn v. Proof. by apply: sumr_ge0 => a _; apply: sqr_ge0. Qed.
Lemma nn_eq0 v : nn v = 0 -> v = 0.
Proof.
move=> E; apply/colP => a; rewrite mxE; apply/eqP; rewrite -sqrf_eq0.
have := psumr_eq0P (P := predT) (F := fun i => v i ord0 ^+ 2) _ E.
by move=> -> // k _; apply: sqr_ge0.
Qed.
Lemma dotC u v : dot u v = dot v u. Proof. by apply: eq_bigr => a _; rewrite mulrC. Qed.
Lemma dotD u v w : dot u (v + w) = dot u v + dot u w.
Proof. by rewrite /dot -big_split; apply: eq_bigr => a _; rewrite mxE mulrDr. Qed.
Lemma dotZ u c v : dot u (c *: v) = c * dot u v.
Proof. by rewrite /dot mulr_sumr; apply: eq_bigr => a _; rewrite mxE mulrCA. Qed.
Lemma dotN u v : dot u (- v) = - dot u v. Proof. by rewrite -scaleN1r dotZ mulN1r. Qed.
Lemma dot0 u : dot u 0 = 0. Proof. by rewrite /dot big1 // => a _; rewrite mxE mulr0. Qed.
Lemma dot_sum (I : finType) (P : pred I) u (f : I -> 'cV[F]_n) : dot u (\sum_(i | P i) f i) = \sum_(i | P i) dot u (f i).
Proof. by elim/big_rec2: _ => [|i a b _ <-]; rewrite ?dot0 ?dotD. Qed.
Lemma nnD u v : nn (u + v) = nn u + 2%:R * dot u v + nn v.
Proof. rewrite !nnE !dotD ![dot (u + v) _]dotC !dotD [dot v u]dotC; ring. Qed.
Lemma nnZ c v : nn (c *: v) = c ^+ 2 * nn v.
Proof. by rewrite !nnE dotZ dotC dotZ mulrA expr2. Qed.
Lemma nnN v : nn (- v) = nn v. Proof. by rewrite -scaleN1r nnZ sqrrN expr1n mul1r. Qed.
Lemma nn_sum p (a : 'I_p -> 'cV[F]_n) : nn (\sum_i a i) <= p%:R * \sum_i nn (a i).
Proof.
rewrite [X in _ <= _ * X]exchange_big /= mulr_sumr; apply: ler_sum => k _; rewrite summxE.
have := cauchy (fun _ : 'I_p => 1) (fun i => a i k ord0).
under eq_bigr do rewrite mul1r.
by under [X in _ <= X * _ -> _]eq_bigr do rewrite expr1n; rewrite sumr_const card_ord.
Qed.

(** Projection onto a column *)
Definition proj (x v : 'cV[F]_n) : 'cV[F]_n := (dot x v / nn x) *: x.
Lemma proj_nn x v : nn (proj x v) * nn x = dot x v ^+ 2.
Proof.
rewrite nnZ; case: (eqVneq (nn x) 0) => [E|N]; last by rewrite expr_div_n -mulrA -expr2 divfK // expf_neq0.
by rewrite E !mulr0 (nn_eq0 E) dotC dot0 expr0n.
Qed.
Lemma dot_proj x v : dot x (proj x v) = dot x v.
Proof.
rewrite dotZ -nnE; case: (eqVneq (nn x) 0) => [E|N]; last by rewrite divfK.
by rewrite E mulr0 (nn_eq0 E) dotC dot0.
Qed.
Lemma projD x u v : proj x (u + v) = proj x u + proj x v.
Proof. by rewrite /proj dotD mulrDl scalerDl. Qed.
Lemma projN x u : proj x (- u) = - proj x u.
Proof. by rewrite /proj dotN mulNr scaleNr. Qed.
Lemma proj_sum x p (P : pred 'I_p) (f : 'I_p -> 'cV[F]_n) : proj x (\sum_(i | P i) f i) = \sum_(i | P i) proj x (f i).
Proof. by rewrite /proj dot_sum mulr_suml scaler_suml. Qed.
Lemma proj_id x c : proj x (c *: x) = c *: x.
Proof.
rewrite /proj dotZ -nnE; case: (eqVneq (nn x) 0) => [E|N]; last by rewrite mulfK.
by rewrite (nn_eq0 E) !scaler0.
Qed.
Lemma proj_split x v : nn (v - proj x v) = nn v - nn (proj x v).
Proof.
rewrite nnD nnN dotN; have -> : dot v (proj x v) = nn (proj x v); last by ring.
rewrite [RHS]nnE {2}/proj [RHS]dotZ [dot (proj _ _) x]dotC dot_proj /proj dotZ [dot v x]dotC; ring.
Qed.
Lemma proj_le x v : nn (proj x v) <= nn v.
Proof. by rewrite -subr_ge0 -proj_split nn_ge0. Qed.
End C.

(** ** One cycle of projections *)
Section Cycle.
Variables (F : realFieldType) (n p : nat) (X : 'I_p -> 'cV[F]_n).
Variable e : nat -> 'cV[F]_n.
Hypothesis He : forall i : 'I_p, e i.+1 = e i - proj (X i) (e i).
Let d (i : 'I_p) := proj (X i) (e i).
Let D := \sum_i nn (d i).
Lemma cycle_part m : (m <= p)%N -> e m = e 0%N - \sum_(k : 'I_p | (k < m)%N) d k.
Proof.
elim: m => [|m IH] L; first by rewrite big1 ?subr0 // => k; rewrite ltn0.
rewrite (He (Ordinal L)) IH; last exact: ltnW.
rewrite [in RHS](bigD1 (Ordinal L)) //= opprD [- d _ + _]addrC addrA; congr (_ - _ + _).
  apply: eq_bigl => k; rewrite -val_eqE /= ltnS; by case: ltngtP.
by rewrite /d /= -IH // ltnW.
Qed.
Lemma cycle_drop : D = nn (e 0%N) - nn (e p).
Proof.
suff H m : (m <= p)%N -> \sum_(k : 'I_p | (k < m)%N) nn (d k) = nn (e 0%N) - nn (e m).
  by rewrite -H //; apply: eq_bigl => k; rewrite ltn_ord.
elim: m => [|m IH] L; first by rewrite subrr big1 // => k; rewrite ltn0.
rewrite (bigD1 (Ordinal L)) //= (He (Ordinal L)) proj_split /= opprB addrCA -IH; last exact: ltnW.
rewrite -/(d (Ordinal L)); congr (_ + _); apply: eq_bigl => k; rewrite -val_eqE /= ltnS; by case: ltngtP.
Qed.
Lemma D_ge0 : 0 <= D. Proof. by apply: sumr_ge0 => i _; apply: nn_ge0. Qed.
Lemma cycle_proj i : nn (proj (X i) (e 0%N)) <= p%:R * D.
Proof.
pose a (k : 'I_p) := if (k < i)%N then proj (X i) (d k) else if k == i then d i else 0.
have -> : proj (X i) (e 0%N) = \sum_k a k.
  have -> : e 0%N = e i + \sum_(k : 'I_p | (k < i)%N) d k by rewrite (cycle_part (ltnW (ltn_ord i))) subrK.
  rewrite projD proj_sum -/(d i) [LHS]addrC [RHS](bigID (fun k : 'I_p => (k < i)%N)) /=; congr (_ + _).
    by apply: eq_bigr => k L; rewrite /a L.
  rewrite (bigD1 i) ?ltnn //= /a ltnn eqxx big1 ?addr0 // => k /andP[/negbTE -> /negbTE ->] //.
apply: le_trans (nn_sum _) _; apply: ler_wpmul2l; first exact: ler0n.
apply: ler_sum => k _; rewrite /a; case: ifP => _; first exact: proj_le.
by case: eqP => [->|_] //; rewrite -(scale0r 0) nnZ expr0n mul0r nn_ge0.
Qed.
Variable v : 'I_p -> F.
Hypothesis span : e 0%N = \sum_i v i *: X i.
Variable l : F.
Hypothesis Hl : \sum_i v i ^+ 2 <= l * nn (e 0%N).
Hypothesis l0 : 0 <= l.
Definition rate : F := l * (\sum_i nn (X i)) * (p%:R * p%:R).
Lemma G_ge0 : 0 <= \sum_i nn (X i). Proof. by apply: sumr_ge0 => i _; apply: nn_ge0. Qed.
Lemma rate_ge0 : 0 <= rate. Proof. by rewrite !mulr_ge0 ?G_ge0 ?ler0n. Qed.
Lemma cycle_bound : nn (e 0%N) <= rate * (nn (e 0%N) - nn (e p)).
Proof.
rewrite -cycle_drop; case: (eqVneq (nn (e 0%N)) 0) => [->|N]; first by rewrite mulr_ge0 ?rate_ge0 ?D_ge0.
have P : 0 < nn (e 0%N) by rewrite lt_def N nn_ge0.
rewrite -(ler_pmul2l P) -{1}expr2.
have E : nn (e 0%N) = \sum_i v i * dot (X i) (e 0%N).
  by rewrite nnE {1}span dotC dot_sum; apply: eq_bigr => i _; rewrite dotZ [dot (e _) _]dotC.
rewrite {1}E; apply: le_trans (cauchy _ _) _.
apply: le_trans (_ : _ <= l * nn (e 0%N) * ((\sum_i nn (X i)) * (p%:R * p%:R) * D)) _; last by rewrite /rate le_eqVlt; apply/orP; left; apply/eqP; ring.
apply: ler_pmul => //; first by apply: sumr_ge0 => i _; apply: sqr_ge0.
  by apply: sumr_ge0 => i _; apply: sqr_ge0.
have H i : dot (X i) (e 0%N) ^+ 2 <= p%:R * D * \sum_i nn (X i).
  rewrite -proj_nn; apply: ler_pmul; rewrite ?nn_ge0 ?cycle_proj //.
  by rewrite (bigD1 i) //= ler_addl; apply: sumr_ge0 => k _; apply: nn_ge0.
apply: le_trans (ler_sum _ (fun i _ => H i)) _.
rewrite sumr_const card_ord -mulr_natl le_eqVlt; apply/orP; left; apply/eqP; ring.
Qed.
Lemma cycle_contract : nn (e p) <= rate / (1 + rate) * nn (e 0%N).
Proof.
have R := rate_ge0; have P : 0 < 1 + rate by apply: (ltr_paddr R ltr01).
rewrite mulrAC ler_pdivl_mulr //; have := cycle_bound; have D0 := D_ge0; rewrite cycle_drop in D0.
move: D0; rewrite subr_ge0 mulrBr => D0 H.
rewrite mulrDr mulr1 -ler_subr_addr; apply: le_trans D0 _; rewrite [nn (e p) * _]mulrC //.
Qed.
End Cycle.

(** ** Sweeps *)
Section Sweeps.
Variables (F : realFieldType) (n p : nat) (x : 'M[F]_(n, p)) (L : 'M[F]_(p, n)).
Hypothesis HL : L *m x = 1%:M.
Local Notation Xc i := (col i x).
Definition lsize : F := \sum_i \sum_a L i a ^+ 2.
Lemma lsize_ge0 : 0 <= lsize. Proof. by do 2 apply: sumr_ge0 => ? _; apply: sqr_ge0. Qed.
Lemma mul_cols (v : 'cV[F]_p) : x *m v = \sum_i v i ord0 *: Xc i.
Proof. by apply/colP => a; rewrite mxE summxE; apply: eq_bigr => i _; rewrite !mxE mulrC. Qed.
Lemma left_bound (v : 'cV[F]_p) : \sum_i v i ord0 ^+ 2 <= lsize * nn (x *m v).
Proof.
rewrite {1}(_ : v = L *m (x *m v)); last by rewrite mulmxA HL mul1mx.
rewrite mulr_suml; apply: ler_sum => i _; rewrite mxE; exact: cauchy.
Qed.
Definition gsq : F := rate (fun i => Xc i) lsize / (1 + rate (fun i => Xc i) lsize).
Lemma gsq_range : 0 <= gsq < 1.
Proof.
have R : 0 <= rate (fun i => Xc i) lsize by apply: rate_ge0; exact: lsize_ge0.
have P : 0 < 1 + rate (fun i => Xc i) lsize by apply: (ltr_paddr R ltr01).
by rewrite divr_ge0 ?(ltW P) //= ltr_pdivr_mulr // mul1r ltr_addr ltr01.
Qed.

Variables (y : 'cV[F]_n) (b : 'cV[F]_p) (f : nat -> 'I_p -> 'cV[F]_n) (K : nat).
Hypothesis Hb : forall i, dot (Xc i) (y - x *m b) = 0.
Hypothesis Hf : forall j i, (j < K)%N -> f j.+1 i = proj (Xc i) (y - \sum_(k : 'I_p | (k < i)%N) f j.+1 k - \sum_(k : 'I_p | (i < k)%N) f j k).
Definition err j : 'cV[F]_n := x *m b - \sum_k f j k.
Definition mid j m : 'cV[F]_n := x *m b - \sum_(k : 'I_p | (k < m)%N) f j.+1 k - \sum_(k : 'I_p | (m <= k)%N) f j k.
Lemma mid0 j : mid j 0 = err j.
Proof. by rewrite /mid [X in _ - X - _]big1 ?subr0 // => k; rewrite ltn0. Qed.
Lemma midp j : mid j p = err j.+1.
Proof.
rewrite /mid [X in _ - _ - X]big1 ?subr0 => [|k]; last by rewrite leqNgt ltn_ord.
by congr (_ - _); apply: eq_bigl => k; rewrite ltn_ord.
Qed.
Definition coef j i : F := dot (Xc i) (y - \sum_(k : 'I_p | (k < i)%N) f j k - \sum_(k : 'I_p | (i < k)%N) f j.-1 k) / nn (Xc i).
Lemma coefE j i : (0 < j <= K)%N -> f j i = coef j i *: Xc i.
Proof. by case: j => [|j] //= L'; rewrite Hf. Qed.
Lemma below_succ (i : 'I_p) (g : 'I_p -> 'cV[F]_n) : \sum_(k : 'I_p | (k < i.+1)%N) g k = \sum_(k : 'I_p | (k < i)%N) g k + g i.
Proof.
rewrite (bigD1 i) ?ltnSn //= addrC; congr (_ + _); apply: eq_bigl => k.
by rewrite -val_eqE /= ltnS; case: ltngtP.
Qed.
Lemma above_pred (i : 'I_p) (g : 'I_p -> 'cV[F]_n) : \sum_(k : 'I_p | (i <= k)%N) g k = g i + \sum_(k : 'I_p | (i < k)%N) g k.
Proof.
rewrite (bigD1 i) ?leqnn //=; congr (_ + _); apply: eq_bigl => k.
by rewrite -val_eqE /=; case: ltngtP.
Qed.
Lemma mid_step j (i : 'I_p) : (0 < j < K)%N -> mid j i.+1 = mid j i - proj (Xc i) (mid j i).
Proof.
case/andP=> j0 jK.
have E : f j.+1 i = proj (Xc i) (mid j i) + f j i.
  rewrite Hf // (_ : y - _ - _ = (y - x *m b) + (mid j i + f j i)).
    rewrite projD [proj _ (y - _)](_ : _ = 0) ?add0r; last by rewrite /proj Hb mul0r scale0r.
    by rewrite projD (coefE i (j := j)) ?j0 ?(ltnW jK) // proj_id.
  rewrite /mid above_pred; move: (\sum_(_ | _) _) (\sum_(_ | _) _) (x *m b) (f j i) => u v w z; apply/colP => a; rewrite !mxE; gring.
move: E; move: (proj _ _) => t E; rewrite /mid below_succ above_pred E; move: (\sum_(_ | _) _) (\sum_(_ | _) _) (x *m b) (f j i) => u v w z.
by apply/colP => a; rewrite !mxE; gring.
Qed.
Lemma err_span j : (0 < j <= K)%N -> err j = x *m (b - \col_i coef j i).
Proof.
move=> L'; rewrite mulmxBr /err; congr (_ - _); rewrite mul_cols; apply: eq_bigr => i _; by rewrite mxE -coefE.
Qed.
Lemma err_step j : (0 < j < K)%N -> nn (err j.+1) <= gsq * nn (err j).
Proof.
move=> jK; rewrite -midp -mid0.
have S : err j = x *m (b - \col_i coef j i) by apply: err_span; case/andP: jK => -> /ltnW.
apply: (@cycle_contract F n p (fun i => Xc i) (mid j) (fun i => mid_step i jK) (fun i => (b - \col_i coef j i) i ord0)).
- by rewrite mid0 S mul_cols.
- by rewrite mid0 S; apply: left_bound.
- exact: lsize_ge0.
Qed.
Lemma err_rate j : (0 < j <= K)%N -> nn (err j) <= gsq ^+ j.-1 * nn (err 1).
Proof.
case: j => [|j] // ; elim: j => [|j IH] L'; first by rewrite expr0 mul1r.
have L2 : (0 < j.+1 < K)%N by [].
apply: le_trans (err_step L2) _; rewrite exprS -mulrA; apply: ler_wpmul2l; first by case/andP: gsq_range.
by apply: IH; rewrite /= ltnW.
Qed.
Lemma rss_err j : (0 < j <= K)%N -> nn (y - \sum_k f j k) = nn (y - x *m b) + nn (err j).
Proof.
move=> L'; rewrite (_ : y - _ = (y - x *m b) + err j); last by rewrite /err addrA subrK.
have Z : dot (y - x *m b) (err j) = 0.
  by rewrite (err_span L') [x *m (b - _)]mul_cols dot_sum big1 // => i _; rewrite dotZ dotC Hb mulr0.
by rewrite nnD Z mulr0 addr0.
Qed.
Lemma coef_rate j : (0 < j <= K)%N -> \sum_i (b i ord0 - coef j i) ^+ 2 <= lsize * nn (err j).
Proof.
move=> L'; rewrite (err_span L'); have := left_bound (b - \col_i coef j i); congr (_ <= _).
by apply: eq_bigr => i _; rewrite !mxE.
Qed.
End Sweeps.

(** ** The model *)
Section Model.
Variables (F : realFieldType) (n p : nat).
Lemma smoother_proj (x v : 'cV[F]_n) : smoother x (fun _ => const_mx 1) *m v = proj x v.
Proof.
apply/colP => a; rewrite !mxE.
have E : \sum_k (const_mx 1 : 'cV[F]_n) k ord0 * x k ord0 ^+ 2 = nn x by apply: eq_bigr => k _; rewrite mxE mul1r.
rewrite /dot mulr_suml mulr_suml; apply: eq_bigr => k _; rewrite [smoother _ _ _ _]mxE E !mxE mul1r.
move: (nn x)^-1 => d; gring.
Qed.
Variable inv : 'M[F]_1 -> option 'M[F]_1.
Hypothesis cn : inverse_contract inv.
Variables (hat : bool) (x : 'M[F]_(n, p)) (y : 'cV[F]_n).
Variable wt : 'I_p -> F -> 'I_n -> 'cV[F]_n.
Hypothesis ones_wt : forall i h a, wt i h a = const_mx 1.
Variable select : nat -> 'I_p -> 'cV[F]_n -> 'cV[F]_n -> F -> outcome F.
Variables (threshold : 'I_p -> F) (retry : nat).
Local Notation Never2 := (fun _ _ => false).
Local Notation Never3 := (fun _ _ _ => false).
Local Notation Var_pass := (var_pass inv hat x y wt select threshold retry Never2 Never2 Never3).
Local Notation Sweep := (sweep inv hat x y wt select threshold retry Never2 Never2 Never3).
Lemma const_pass it i st st' c : Var_pass it i st = Ok (st', c) -> c = false /\ forall a a', mbetas st' a i = mbetas st' a' i.
Proof.
rewrite /var_pass; case E: (select_var _ _ _ _ _ _ _ _) => [st1| |] //; rewrite /fit_var.
case Ec: (fit_var_core _ _ _ _ _) => [[b S]| |] // [<- <-] /=; split=> // a a'; rewrite !mxE eqxx.
have [B EB ->] := core_local Ec a; have [B' EB' ->] := core_local Ec a'.
by move: EB'; rewrite !ones_wt in EB *; rewrite EB => -[<-].
Qed.
Lemma const_sweep it vars : forall st st', uniq vars -> Sweep it vars st = Ok st' ->
  forall i, i \in vars -> forall a a', mbetas st' a i = mbetas st' a' i.
Proof.
elim: vars => [|i t IH] st st' //= /andP[Ni Ut].
case E: (var_pass _ _ _ _ _ _ _ _ _ _ _ _ _ _) => [[st1 c]| |] //; have [-> Hc] := const_pass E => Et k.
rewrite inE; case: (eqVneq k i) => [-> _ a a'|N /= kt]; last exact: (IH _ _ Ut Et k kt).
by have [H _] := cols_sweep Et Ni; rewrite !H.
Qed.
Variables (s : fitted_model F n p) (bw : 'I_p -> F) (init : 'I_p -> init_type) (sts : nat -> ms F n p) (K : nat).
Hypothesis H0 : sts 0%N = ms_start x y s bw init.
Hypothesis HS : forall j, (j < K)%N -> Sweep j.+1 (enum 'I_p) (sts j) = Ok (sts j.+1).
Variable L : 'M[F]_(p, n).
Hypothesis HL : L *m x = 1%:M.
Variable b : 'cV[F]_p.
Hypothesis Hb : x^T *m (y - x *m b) = 0.
Let f j i := share x (mbetas (sts j)) i.
Lemma Hb' i : dot (col i x) (y - x *m b) = 0.
Proof. by have /colP /(_ i) := Hb; rewrite mxE [RHS]mxE => <-; apply: eq_bigr => a _; congr (_ * _); rewrite !mxE. Qed.
Lemma f_step j i : (j < K)%N -> f j.+1 i = proj (col i x) (y - \sum_(k : 'I_p | (k < i)%N) f j.+1 k - \sum_(k : 'I_p | (i < k)%N) f j k).
Proof.
move=> L'; rewrite /f (recursion_main cn H0 HS i L') -smoother_proj; congr (_ *m _).
by apply/matrixP => a k; rewrite [LHS]mxE [RHS]mxE ones_wt.
Qed.
Lemma rss_nn j : rss_of x (mbetas (sts j)) y = nn (y - \sum_k f j k).
Proof. by apply: eq_bigr => a _; rewrite !mxE summxE; congr ((_ - _) ^+ 2); apply: eq_bigr => i _; rewrite mxE. Qed.
Lemma col_neq0 i : exists a, x a i != 0.
Proof.
apply/existsP; apply: contraT => /existsPn Z.
have /matrixP /(_ i i) := HL; rewrite !mxE eqxx big1 => [/eqP|a _]; first by rewrite eq_sym oner_eq0.
by have /negPn /eqP -> := Z a; rewrite mulr0.
Qed.
Lemma beta_coef j a i : (0 < j <= K)%N -> mbetas (sts j) a i = coef x y f j i.
Proof.
move=> L'; have [a' N] := col_neq0 i.
have <- : mbetas (sts j) a' i = mbetas (sts j) a i.
  case: j L' => [|j] // L'; apply: (const_sweep (enum_uniq 'I_p) (HS L')); exact: mem_enum.
have /colP /(_ a') := coefE f_step i L'; rewrite !mxE mulrC => E; exact: (mulIf N).
Qed.
Let best := \sum_a (y - x *m b) a ord0 ^+ 2.
Lemma uni_main j : (0 < j <= K)%N ->
  let d k := rss_of x (mbetas (sts k)) y - best in
  [/\ 0 <= d j, d j <= gsq x L ^+ j.-1 * d 1%N &
      forall a i, (mbetas (sts j) a i - b i ord0) ^+ 2 <= lsize L * (gsq x L ^+ j.-1 * d 1%N)].
Proof.
move=> L' d.
have E k : (0 < k <= K)%N -> d k = nn (err x b f k).
  by move=> Lk; rewrite /d rss_nn (rss_err Hb' f_step Lk) addrAC subrr add0r.
have L1 : (0 < 1 <= K)%N by case/andP: L' => /leq_trans h /h.
have R := err_rate HL Hb' f_step L'.
rewrite !E //; split=> //; first exact: nn_ge0.
move=> a i; apply: le_trans (_ : _ <= lsize L * nn (err x b f j)) _; last by apply: ler_wpmul2l => //; exact: lsize_ge0.
have C := coef_rate HL b f_step L'; apply: le_trans C; rewrite (bigD1 i) //= beta_coef // -opprB sqrrN ler_addl.
by apply: sumr_ge0 => k _; apply: sqr_ge0.
Qed.
End Model.

Lemma left_inverse (F : realFieldType) n p (x : 'M[F]_(n, p)) : (forall v : 'cV[F]_p, x *m v = 0 -> v = 0) -> exists L, L *m x = 1%:M.
Proof.
move=> H; exists (pinvmx x); apply: mulVpmx.
rewrite /row_full -mxrank_tr; change (row_free x^T); apply: inj_row_free => v E.
by apply: trmx_inj; rewrite trmx0; apply: H; rewrite -[x]trmxK -trmx_mul E trmx0.
Qed.
Lemma equal_weights_main (F : realFieldType) n p (x : 'M[F]_(n, p)) : (forall v : 'cV[F]_p, x *m v = 0 -> v = 0) ->
  exists q c : F, [/\ 0 <= q < 1, 0 <= c & forall (inv1 : 'M[F]_1 -> option 'M[F]_1) hat y (s : fitted_model F n p) bw init
      (wt : 'I_p -> F -> 'I_n -> 'cV[F]_n) select threshold retry (sts : nat -> ms F n p) K (b : 'cV[F]_p),
    inverse_contract inv1 -> (forall i h a, wt i h a = const_mx 1) -> x^T *m (y - x *m b) = 0 ->
    sts 0%N = ms_start x y s bw init ->
    (forall j, (j < K)%N -> sweep inv1 hat x y wt select threshold retry (fun _ _ => false) (fun _ _ => false) (fun _ _ _ => false)
       j.+1 (enum 'I_p) (sts j) = Ok (sts j.+1)) ->
    let excess k := rss_of x (mbetas (sts k)) y - \sum_a (y - x *m b) a ord0 ^+ 2 in
    forall j, (0 < j <= K)%N ->
    [/\ 0 <= excess j, excess j <= q ^+ j.-1 * excess 1%N &
        forall a i, (mbetas (sts j) a i - b i ord0) ^+ 2 <= c * (q ^+ j.-1 * excess 1%N)]].
Proof.
move=> /left_inverse [L HL]; exists (gsq x L), (lsize L); split; [exact: gsq_range|exact: lsize_ge0|].
move=> inv1 hat y s bw init wt select threshold retry sts K b cn ow Hb H0 HS excess j Lj.
exact: (uni_main cn ow H0 HS HL Hb Lj).
Qed.

(** ** Ending *)
Lemma pow_small (F : archiFieldType) (q A t : F) : 0 <= q < 1 -> 0 <= A -> 0 < t -> exists J, forall j, (J <= j)%N -> q ^+ j * A <= t.
Proof.
case/andP=> q0 q1 A0 t0.
have d0 : 0 < 1 - q by rewrite subr_gt0.
have B j : q ^+ j * (1 + j%:R * (1 - q)) <= 1.
  elim: j => [|j IH]; first by rewrite expr0 mul0r addr0 mul1r.
  apply: le_trans IH; rewrite exprSr -mulrA; apply: ler_wpmul2l; first exact: exprn_ge0.
  rewrite -subr_ge0 (_ : _ - _ = j.+1%:R * (1 - q) ^+ 2); first by rewrite mulr_ge0 ?ler0n ?sqr_ge0.
  by rewrite -[j.+1]addn1 natrD; ring.
have P : 0 <= A / ((1 - q) * t) by rewrite divr_ge0 // mulr_ge0 // ltW.
exists (Num.bound (A / ((1 - q) * t))) => j Lj.
have H : A <= j%:R * (1 - q) * t.
  rewrite -mulrA -ler_pdivr_mulr ?mulr_gt0 //; apply: ltW; apply: lt_le_trans (archi_boundP P) _; by rewrite ler_nat.
apply: le_trans (_ : _ <= q ^+ j * (j%:R * (1 - q) * t)) _; first by apply: ler_wpmul2l => //; exact: exprn_ge0.
rewrite mulrA ger_pmull //; apply: le_trans (B j); apply: ler_wpmul2l; first exact: exprn_ge0.
by rewrite ler_addr ler01.
Qed.
Lemma ols_exists (F : realFieldType) n p (x : 'M[F]_(n, p)) (y : 'cV[F]_n) : (forall v : 'cV[F]_p, x *m v = 0 -> v = 0) -> exists b, x^T *m (y - x *m b) = 0.
Proof.
move=> H; have U : x^T *m x \in unitmx.
  rewrite -row_free_unit; apply: inj_row_free => v E.
  apply: trmx_inj; rewrite trmx0; apply: H; apply: nn_eq0; rewrite nnE.
  have -> : dot (x *m v^T) (x *m v^T) = (v *m (x^T *m x) *m v^T) ord0 ord0.
    rewrite !mulmxA -mulmxA -[v *m x^T]trmxK trmx_mul trmxK [RHS]mxE; apply: eq_bigr => a _; by rewrite [_^T _ _]mxE.
  by rewrite E mul0mx mxE.
by exists (invmx (x^T *m x) *m (x^T *m y)); rewrite mulmxBr [x^T *m (x *m _)]mulmxA mulKVmx // subrr.
Qed.

Section Stop.
Variables (F : archiFieldType) (n p : nat) (inv1 : 'M[F]_1 -> option 'M[F]_1) (hat : bool) (x : 'M[F]_(n, p)) (y : 'cV[F]_n).
Variable wt : 'I_p -> F -> 'I_n -> 'cV[F]_n.
Variable select : nat -> 'I_p -> 'cV[F]_n -> 'cV[F]_n -> F -> outcome F.
Variables (threshold : 'I_p -> F) (retry : nat) (ctype : crit_type) (t : F) (root : F -> F).
Hypothesis cn : inverse_contract inv1.
Hypothesis ow : forall i h a, wt i h a = const_mx 1.
Hypothesis Hw : forall i bw j, inv1 (xtw (col i x) (wt i bw j) *m col i x) <> None.
Hypothesis Hs : forall it i xi yi bw, exists b, select it i xi yi bw = Ok b.
Hypothesis Hi : forall v : 'cV[F]_p, x *m v = 0 -> v = 0.
Hypothesis t0 : 0 < t.
Hypothesis Hr : ctype = dCVR -> (forall u v, 0 <= v -> u <= v ^+ 2 -> root u <= v) /\ (forall b, y <> x *m b).
Local Notation Never2 := (fun _ _ => false).
Local Notation Never3 := (fun _ _ _ => false).
Local Notation Sweep := (sweep inv1 hat x y wt select threshold retry Never2 Never2 Never3).
Local Notation Iterate := (iterate inv1 hat x y wt select threshold retry (fun _ => false) Never2 Never2 Never3 ctype t root).
Variables (s : fitted_model F n p) (bw : 'I_p -> F) (init : 'I_p -> init_type).
Fixpoint trace j : ms F n p :=
  if j is k.+1 then match Sweep k.+1 (enum 'I_p) (trace k) with Ok st => st | _ => trace k end else ms_start x y s bw init.
Lemma trace_step j : Sweep j.+1 (enum 'I_p) (trace j) = Ok (trace j.+1).
Proof. by have [st' E] := sweep_total hat y Hw Hs threshold retry Never2 Never2 Never3 j.+1 (enum 'I_p) (trace j); rewrite /= E. Qed.
Let R j := mrss x (mbetas (trace j)) y.
Lemma iterate_stable d : forall it crit k, (d <= k)%N ->
  (if d is d'.+1 then criterion ctype root (R (it + d')) (R (it + d)) <= t else exists2 c, crit = Some c & c <= t) ->
  Iterate k it.+1 (R it) crit (trace it) = Iterate d it.+1 (R it) crit (trace it).
Proof.
elim: d => [|d IH] it crit k.
  by case: k => [|k] // _ [c -> ct]; rewrite [LHS]/= ltNge ct.
case: k => [|k] // dk H; rewrite [LHS]/= [RHS]/=; case: (if crit is Some c then _ else _) => //.
rewrite trace_step -/(R it.+1); apply: IH => //.
case: d {dk} H => [|d] H; first by exists (criterion ctype root (R it) (R it.+1)) => //; move: H; rewrite addn0 addn1.
by move: H; rewrite !addSnnS.
Qed.
Lemma iterate_ok d : forall it crit, exists r, Iterate d it.+1 (R it) crit (trace it) = Ok r.
Proof.
elim: d => [|d IH] it crit; first by eexists.
rewrite /=; case: (if crit is Some c then _ else _); last by eexists.
by rewrite trace_step -/(R it.+1); apply: IH.
Qed.
Lemma stops_main : exists J, (exists r, backfitting inv1 hat x y wt select threshold retry (fun _ => false) Never2 Never2 Never3 ctype t root J (ms_start x y s bw init) = Ok r) /\
  forall m, (J <= m)%N ->
  backfitting inv1 hat x y wt select threshold retry (fun _ => false) Never2 Never2 Never3 ctype t root m (ms_start x y s bw init) =
  backfitting inv1 hat x y wt select threshold retry (fun _ => false) Never2 Never2 Never3 ctype t root J (ms_start x y s bw init).
Proof.
have [b Hb] := ols_exists y Hi.
have [q [c [q01 c0 H]]] := equal_weights_main Hi.
set best := \sum_a (y - x *m b) a ord0 ^+ 2 in H.
have b0 : 0 <= best by apply: sumr_ge0 => a _; apply: sqr_ge0.
pose ex k := rss_of x (mbetas (trace k)) y - best.
have G j : (0 < j)%N -> 0 <= ex j /\ ex j <= q ^+ j.-1 * ex 1%N.
  move=> j0; have [|G1 G2 _] := H inv1 hat y s bw init wt select threshold retry trace j b cn ow Hb erefl (fun k _ => trace_step k) j.
    by rewrite j0 leqnn.
  by split.
have e1 : 0 <= ex 1%N by have [] := G 1%N.
have RE k : R k = ex k + best by rewrite /R mrss_rss /ex subrK.
pose t' := if ctype is CVR then t else t ^+ 2 * best.
have t'0 : 0 < t'.
  rewrite /t'; case E: ctype => //; apply: mulr_gt0; first exact: exprn_gt0.
  rewrite lt_def b0 andbT; apply/eqP => /nn_eq0 /eqP; rewrite subr_eq0 => /eqP Z.
  by have [_ N] := Hr E; exact: (N b).
have [J HJ] := pow_small q01 e1 t'0.
exists J.+2; split; first exact: (iterate_ok J.+2 0).
move=> m Lm; change (Iterate m 1%N (R 0%N) None (trace 0%N) = Iterate J.+2 1%N (R 0%N) None (trace 0%N)).
rewrite (@iterate_stable J.+2 0%N None m Lm) //.
rewrite !add0n.
have S : forall j, (J < j)%N -> ex j <= t'.
  by case=> [|j] // Lj; have [_ L] := G j.+1 isT; apply: le_trans L _; apply: HJ.
have D : `|R J.+2 - R J.+1| <= t'.
  rewrite !RE opprD addrACA subrr addr0; have [p1 _] := G J.+1 isT; have [p2 _] := G J.+2 isT.
  rewrite ler_norml; apply/andP; split.
    by rewrite ler_subr_addr addrC; apply: le_trans (_ : _ <= 0) _; rewrite ?subr_le0 ?S.
  by rewrite ler_subl_addr; apply: le_trans (S J.+2 _) _; rewrite ?ler_addl.
move: D; rewrite /criterion /t'; case E: ctype => // D.
have [rt N] := Hr E; apply: rt; first exact: ltW.
have bp : 0 < best by move: t'0; rewrite /t' E pmulr_rgt0 // exprn_gt0.
have Rp : best <= R J.+2 by rewrite RE ler_addr; have [] := G J.+2 isT.
rewrite ler_pdivr_mulr; last exact: lt_le_trans bp Rp.
apply: le_trans D _; apply: ler_wpmul2l => //; exact: sqr_ge0.
Qed.
End Stop.
Lemma ex2_indep (v : 'cV[rat]_2) : ex2_x *m v = 0 -> v = 0.
Proof. by move=> E; rewrite -(mulKmx ex2_unit v) E mulmx0. Qed.
Lemma ex2_equal :
  [/\ forall v : 'cV[rat]_2, ex2_x *m v = 0 -> v = 0, forall i h a, ex2_wt i h a = const_mx 1,
      ex2_x^T *m (ex2_y - ex2_x *m const_mx 1) = 0 &
  forall K, exists sts : nat -> ms _ 2 2, sts 0%N = ex2_s0 /\
    forall j, (j < K)%N -> sweep (@exact_inv _ 1) true ex2_x ex2_y ex2_wt (fun _ _ _ _ b => Ok b) (fun _ => 1) 5
      (fun _ _ => false) (fun _ _ => false) (fun _ _ _ => false) j.+1 (enum 'I_2) (sts j) = Ok (sts j.+1)].
Proof.
split=> //; [exact: ex2_indep| |exact: (trace_exists _ _ ex2_inv1)].
rewrite (_ : ex2_y - _ = 0) ?mulmx0 //; apply/colP => -[[|[|]]] // h; rewrite !mxE !big_ord_recl !big_ord0 !mxE /=; exact/eqP.
Qed.
Lemma ex2_end : [/\ forall i h a, ex2_wt i h a = const_mx 1,
  forall i h j, exact_inv (xtw (col i ex2_x) (ex2_wt i h j) *m col i ex2_x) <> None & forall v : 'cV[rat]_2, ex2_x *m v = 0 -> v = 0].
Proof. by split=> //; [exact: ex2_inv1|exact: ex2_indep]. Qed.
