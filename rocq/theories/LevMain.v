From mathcomp Require Import all_ssreflect all_algebra ring.
From Verif Require Import Outcome GwrModel GwrSpec GwrProofs.
Set Implicit Arguments. Unset Strict Implicit. Unset Printing Implicit Defensive.
Import Order.TTheory GRing.Theory Num.Theory.
Local Open Scope ring_scope.

Section L.
Variables (F : realFieldType) (n p : nat) (inv : 'M[F]_p -> option 'M[F]_p).
Hypothesis contract : inverse_contract inv.
Variables (x : 'M[F]_(n, p)) (W : 'I_n -> 'cV[F]_n).
Notation okat := (okat inv). Notation sof := (sof inv). Notation Bof := (Bof inv).

Lemma normal_sym w : (xtw x w *m x)^T = xtw x w *m x.
Proof. by rewrite xtwE !trmx_mul trmxK tr_diag_mx mulmxA. Qed.
Lemma normal_form w (c d : 'cV[F]_p) : (d^T *m (xtw x w *m x) *m c) ord0 ord0 =
  \sum_j w j ord0 * (x *m c) j ord0 * (x *m d) j ord0.
Proof.
rewrite xtwE -!mulmxA mulmxA -trmx_mul mxE; apply: eq_bigr => j _.
by rewrite mxE mul_diag_mx [X in _ * X]mxE [w^T _ _]mxE mulrC.
Qed.
Definition cvec i : 'cV[F]_p := (Bof x W i)^T *m (row i x)^T.
Definition u i j : F := (x *m cvec i) j ord0.
Lemma sof_u i j : sof x W i ord0 j = W i j ord0 * u i j.
Proof.
have -> : sof x W i ord0 j = (sof x W i)^T j ord0 by rewrite [RHS]mxE.
rewrite /GwrProofs.sof /cof !trmx_mul xtwE trmx_mul trmxK tr_diag_mx -!mulmxA mul_diag_mx mxE [_^T ord0 j]mxE.
by rewrite /u /cvec.
Qed.
Lemma normal_c i : okat x W i -> (xtw x (W i) *m x) *m cvec i = (row i x)^T.
Proof.
move=> ok; rewrite /cvec mulmxA -{1}(normal_sym (W i)) -trmx_mul (Bof_inv contract ok) trmx1 mul1mx.
by [].
Qed.
Lemma reproduce i (d : 'cV[F]_p) : okat x W i -> \sum_j W i j ord0 * u i j * (x *m d) j ord0 = (x *m d) i ord0.
Proof.
move=> ok; rewrite -normal_form -mulmxA normal_c // -trmx_mul mxE.
by rewrite !mxE; apply: eq_bigr => a _; rewrite !mxE.
Qed.
Hypothesis w01 : forall i j, 0 <= W i j ord0 <= 1.
Hypothesis w1 : forall i, W i i ord0 = 1.
Lemma own i : sof x W i ord0 i = u i i. Proof. by rewrite sof_u w1 mul1r. Qed.
Lemma u_square i : okat x W i -> \sum_j W i j ord0 * u i j ^+ 2 = u i i.
Proof. move=> ok; rewrite -[RHS](reproduce (cvec i) ok); apply: eq_bigr => j _; by rewrite expr2 mulrA. Qed.
Lemma row_square i : okat x W i -> \sum_j sof x W i ord0 j ^+ 2 <= sof x W i ord0 i.
Proof.
move=> ok; rewrite own -(u_square ok); apply: ler_sum => j _; rewrite sof_u exprMn.
have /andP [w0 wl] := w01 i j; apply: ler_wpmul2r; first exact: sqr_ge0.
by rewrite expr2; apply: ler_pimull.
Qed.
Lemma row_enp i : okat x W i -> 2%:R * sof x W i ord0 i - \sum_j sof x W i ord0 j ^+ 2 <= 1.
Proof.
move=> ok; rewrite (bigD1 i) //=; set s := sof x W i ord0 i; set T := \sum_(j | _) _.
have T0 : 0 <= T by apply: sumr_ge0 => j _; apply: sqr_ge0.
have S0 := sqr_ge0 (1 - s); rewrite -subr_ge0.
have -> : 1 - (2%:R * s - (s ^+ 2 + T)) = (1 - s) ^+ 2 + T.
  by clear; ring.
exact: addr_ge0.
Qed.
Lemma row_full i : okat x W i -> 2%:R * sof x W i ord0 i - \sum_j sof x W i ord0 j ^+ 2 = 1 ->
  forall j, sof x W i ord0 j = (j == i)%:R.
Proof.
move=> ok; rewrite (bigD1 i) //=; set s := sof x W i ord0 i; set T := \sum_(j | _) _ => E.
have T0 : 0 <= T by apply: sumr_ge0 => j _; apply: sqr_ge0.
have S0 := sqr_ge0 (1 - s).
have Z : (1 - s) ^+ 2 + T = 0.
  have -> : (1 - s) ^+ 2 + T = 1 - (2%:R * s - (s ^+ 2 + T)) by clear; ring.
  by rewrite E subrr.
move/eqP: Z; rewrite paddr_eq0 // => /andP [/eqP Z1 /eqP Z2] j.
case: eqP => [->|/eqP ji] /=.
  by move/eqP: Z1; rewrite sqrf_eq0 subr_eq0 => /eqP.
have /eqP := psumr_eq0P (fun k _ => sqr_ge0 (sof x W i ord0 k)) Z2 ji.
by rewrite sqrf_eq0 => /eqP.
Qed.
(** The global hat matrix *)
Definition G := x^T *m x.
Definition dvec i : 'cV[F]_p := invmx G *m (row i x)^T.
Lemma G_unit i : okat x W i -> G \in unitmx.
Proof.
move=> ok; rewrite -row_free_unit; apply: inj_row_free => v vG.
have Z : \sum_j ((x *m v^T) j ord0) ^+ 2 = 0.
  have : (v *m G *m v^T) ord0 ord0 = 0 by rewrite vG mul0mx mxE.
  rewrite /G -mulmxA -mulmxA mulmxA -{1}[v]trmxK -trmx_mul mxE => Hz; rewrite -[RHS]Hz; apply: eq_bigr => j _.
  by rewrite [X in _ = X * _]mxE expr2.
have P : forall j, true -> ((x *m v^T) j ord0) ^+ 2 = 0.
  by apply: psumr_eq0P Z => j _; apply: sqr_ge0.
have xv : x *m v^T = 0 by apply/colP => j; move/eqP: (P j isT); rewrite sqrf_eq0 => /eqP ->; rewrite mxE.
have : Bof x W i *m (xtw x (W i) *m x) *m v^T = 0 by rewrite -!mulmxA xv !mulmx0.
by rewrite (Bof_inv contract ok) mul1mx => /(congr1 trmx); rewrite trmxK trmx0.
Qed.
Definition v i j : F := (x *m dvec i) j ord0.
Lemma reproduce_G i (d : 'cV[F]_p) : G \in unitmx -> \sum_j v i j * (x *m d) j ord0 = (x *m d) i ord0.
Proof.
move=> U.
have Gs : G^T = G by rewrite /G trmx_mul trmxK.
have -> : \sum_j v i j * (x *m d) j ord0 = ((x *m dvec i)^T *m (x *m d)) ord0 ord0.
  by rewrite mxE; apply: eq_bigr => j _; rewrite [_^T _ _]mxE.
rewrite trmx_mul -mulmxA [x^T *m _]mulmxA -/G /dvec trmx_mul trmxK trmx_inv Gs -mulmxA [invmx G *m _]mulmxA mulVmx // mul1mx.
by rewrite !mxE; apply: eq_bigr => a _; rewrite !mxE.
Qed.
Lemma row_lower i : okat x W i -> v i i <= sof x W i ord0 i.
Proof.
move=> ok; rewrite own; have U := G_unit ok.
have E1 : \sum_j W i j ord0 * u i j * v i j = v i i := reproduce (dvec i) ok.
have E2 : \sum_j v i j * v i j = v i i := reproduce_G i (dvec i) U.
 have E3 := u_square ok.
have Q : 0 <= \sum_j W i j ord0 * (u i j - v i j) ^+ 2.
  by apply: sumr_ge0 => j _; apply: mulr_ge0; [case/andP: (w01 i j)|apply: sqr_ge0].
have R1 : \sum_j W i j ord0 * v i j ^+ 2 <= v i i.
  rewrite -[X in _ <= X]E2; apply: ler_sum => j _; rewrite -expr2.
  by apply: ler_pimull; [apply: sqr_ge0|case/andP: (w01 i j)].
have E : \sum_j W i j ord0 * (u i j - v i j) ^+ 2 = u i i - (v i i + v i i) + \sum_j W i j ord0 * v i j ^+ 2.
  transitivity (\sum_j (W i j ord0 * u i j ^+ 2 - (W i j ord0 * u i j * v i j + W i j ord0 * u i j * v i j) + W i j ord0 * v i j ^+ 2)).
    by apply: eq_bigr => j _; move: (W i j ord0) (u i j) (v i j) => a b c; clear; ring.
  by rewrite !big_split /= sumrN !big_split /= E1 E3.
move: Q; rewrite E => Q; rewrite -subr_ge0.
apply: le_trans Q _; have -> : u i i - v i i = u i i - (v i i + v i i) + v i i by move: (u i i) (v i i) => a b; clear; ring.
by rewrite ler_add2l.
Qed.
Lemma sum_v : G \in unitmx -> \sum_i v i i = p%:R.
Proof.
move=> U; have <- : \tr (x *m (invmx G *m x^T)) = p%:R by rewrite mxtrace_mulC -mulmxA mulVmx // mxtrace1.
rewrite /mxtrace; apply: eq_bigr => i _; rewrite /v /dvec !mulmxA [LHS]mxE [RHS]mxE.
by apply: eq_bigr => a _; rewrite !mxE.
Qed.
End L.

Section M.
Variables (F : realFieldType) (n p : nat) (inv : 'M[F]_p -> option 'M[F]_p).
Hypothesis contract : inverse_contract inv.
Lemma det_row (r : 'rV[F]_n) : \det (r *m r^T) = \sum_j r ord0 j ^+ 2.
Proof. by rewrite det_mx11 mxE; apply: eq_bigr => j _; rewrite [_^T _ _]mxE expr2. Qed.
Lemma bounds_main storeS storeC (x : 'M[F]_(n, p)) y (W : 'I_n -> 'cV[F]_n) s : (0 < n)%N ->
  (forall i j, 0 <= W i j ord0 <= 1) -> (forall i, W i i ord0 = 1) ->
  fit_core inv storeS storeC 0 n x y W (fun _ => false) = Ok (s, false) ->
  [/\ p%:R <= shat0 s, shat0 s <= 2%:R * shat0 s - shat1 s, 2%:R * shat0 s - shat1 s <= n%:R &
      2%:R * shat0 s - shat1 s = n%:R -> forall i, \sum_a x i a * betas s a i = y i ord0].
Proof.
move=> n0 w01 w1 E; have D := fit_core_desc E.
have ok i : okat inv x W i by apply: (allP (d_ok D)); rewrite in_range ltn_ord.
have s0E : shat0 s = \sum_i sof inv x W i ord0 i by rewrite (d_sh0 D) /= add0r range_full big_enum.
have s1E : shat1 s = \sum_i \sum_j sof inv x W i ord0 j ^+ 2.
  by rewrite (d_sh1 D) /= add0r range_full big_enum; apply: eq_bigr => i _; rewrite det_row.
have enpE : 2%:R * shat0 s - shat1 s = \sum_i (2%:R * sof inv x W i ord0 i - \sum_j sof inv x W i ord0 j ^+ 2).
  by rewrite s0E s1E mulr_sumr -sumrN -big_split.
have nE : n%:R = \sum_(i < n) (1 : F) by rewrite sumr_const card_ord.
split.
- have U := G_unit contract (ok (Ordinal n0)); rewrite -(sum_v U) s0E; apply: ler_sum => i _; exact: row_lower.
- rewrite enpE s0E; apply: ler_sum => i _; rewrite mulr_natl mulr2n -addrA ler_addl subr_ge0.
  exact: row_square.
- rewrite enpE nE; apply: ler_sum => i _; exact: row_enp.
- move=> Q i.
  have Z : \sum_i (1 - (2%:R * sof inv x W i ord0 i - \sum_j sof inv x W i ord0 j ^+ 2)) = 0.
    by rewrite big_split /= sumrN -enpE Q -nE subrr.
  have Pk k : true -> 0 <= 1 - (2%:R * sof inv x W k ord0 k - \sum_j sof inv x W k ord0 j ^+ 2).
    by move=> _; rewrite subr_ge0; apply: row_enp.
  have Z' := psumr_eq0P Pk Z.
  have R : 2%:R * sof inv x W i ord0 i - \sum_j sof inv x W i ord0 j ^+ 2 = 1.
    by apply/esym/eqP; rewrite -subr_eq0; apply/eqP; exact: (Z' i isT).
  have S := row_full (ok i) R.
  have -> : \sum_a x i a * betas s a i = (row i x *m col i (betas s)) ord0 ord0.
    by rewrite mxE; apply: eq_bigr => a _; rewrite !mxE.
  rewrite (d_betas D) ?in_range ?ltn_ord // fitted_sof mxE (bigD1 i) //= S eqxx mul1r big1 ?addr0 // => j ji.
  by rewrite S (negbTE ji) mul0r.
Qed.
Lemma uniform_main storeS storeC (x : 'M[F]_(n, p)) y (W : 'I_n -> 'cV[F]_n) s : (0 < n)%N ->
  (forall i j, W i j ord0 = 1) -> fit_core inv storeS storeC 0 n x y W (fun _ => false) = Ok (s, false) ->
  shat0 s = p%:R /\ shat1 s = p%:R.
Proof.
move=> n0 w1 E; have D := fit_core_desc E.
have ok i : okat inv x W i by apply: (allP (d_ok D)); rewrite in_range ltn_ord.
have U := G_unit contract (ok (Ordinal n0)).
have uE i : u inv x W i i = v x i i.
  have E1 : \sum_j W i j ord0 * u inv x W i j * v x i j = v x i i := reproduce contract (dvec x i) (ok i).
  have E2 : \sum_j v x i j * u inv x W i j = u inv x W i i := reproduce_G i (cvec inv x W i) U.
  rewrite -E1 -E2; apply: eq_bigr => j _; by rewrite w1 mul1r mulrC.
have s0E : shat0 s = \sum_i u inv x W i i.
  rewrite (d_sh0 D) /= add0r range_full big_enum; apply: eq_bigr => i _; by rewrite sof_u w1 mul1r.
have s1E : shat1 s = \sum_i u inv x W i i.
  rewrite (d_sh1 D) /= add0r range_full big_enum; apply: eq_bigr => i _; rewrite det_row -(u_square contract (ok i)).
  by apply: eq_bigr => j _; rewrite sof_u w1 !mul1r.
by rewrite s0E s1E -(sum_v U); split; apply: eq_bigr.
Qed.
End M.
