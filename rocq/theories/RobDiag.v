From mathcomp Require Import all_ssreflect all_algebra ring.
From Verif Require Import Outcome GwrModel GwrSpec GwrProofs GwrCases LevMain RobFitModel RobFitProofs RobDiagModel.
Set Implicit Arguments. Unset Strict Implicit. Unset Printing Implicit Defensive.
Import Order.TTheory GRing.Theory Num.Theory.
Local Open Scope ring_scope.

Section T.
Variables (F : realFieldType) (n p : nat) (inv : 'M[F]_p -> option 'M[F]_p).
Hypothesis contract : inverse_contract inv.
Variables (x : 'M[F]_(n, p)) (w : 'I_n -> 'cV[F]_n) (m : 'cV[F]_n).
Hypothesis w01 : forall i j, 0 <= w i j ord0 <= 1.
Hypothesis w1 : forall i, w i i ord0 = 1.
Hypothesis m0 : forall j, 0 <= m j ord0.
Let W := fun i : 'I_n => \col_j (w i j ord0 * m j ord0).
Let WE i j : W i j ord0 = w i j ord0 * m j ord0. Proof. by rewrite mxE. Qed.
Let W0 i j : 0 <= W i j ord0. Proof. by rewrite WE mulr_ge0 //; case/andP: (w01 i j). Qed.
Let Wm i j : W i j ord0 <= m j ord0. Proof. by rewrite WE ler_pimull //; case/andP: (w01 i j). Qed.
Definition Gm := xtw x m *m x.
Lemma Gm_unit i : okat inv x W i -> Gm \in unitmx.
Proof.
move=> ok; rewrite -row_free_unit; apply: inj_row_free => v vG.
have Z : \sum_j m j ord0 * ((x *m v^T) j ord0) ^+ 2 = 0.
  have : (v^T^T *m Gm *m v^T) ord0 ord0 = 0 by rewrite trmxK vG mul0mx mxE.
  by rewrite normal_form => Hz; rewrite -[RHS]Hz; apply: eq_bigr => j _; rewrite expr2 mulrA.
have P j : m j ord0 * ((x *m v^T) j ord0) ^+ 2 = 0.
  by apply: (psumr_eq0P _ Z) => // k _; rewrite mulr_ge0 ?sqr_ge0.
have Wv : xtw x (W i) *m (x *m v^T) = 0.
  apply/colP => a; rewrite mxE [RHS]mxE big1 // => j _; rewrite xtw_entry WE.
  have /eqP := P j; rewrite mulf_eq0 => /orP [/eqP ->|]; first by rewrite !mulr0 mul0r.
  by rewrite sqrf_eq0 => /eqP ->; rewrite mulr0.
have : Bof inv x W i *m (xtw x (W i) *m x) *m v^T = 0 by rewrite -!mulmxA Wv mulmx0.
by rewrite (Bof_inv contract ok) mul1mx => /(congr1 trmx); rewrite trmxK trmx0.
Qed.
Definition dm i : 'cV[F]_p := invmx Gm *m (row i x)^T.
Definition vm i j : F := (x *m dm i) j ord0.
Lemma reproduce_m i (d : 'cV[F]_p) : Gm \in unitmx -> \sum_j m j ord0 * vm i j * (x *m d) j ord0 = (x *m d) i ord0.
Proof.
move=> U; have -> : \sum_j m j ord0 * vm i j * (x *m d) j ord0 = (d^T *m Gm *m dm i) ord0 ord0 by rewrite normal_form.
rewrite /dm -mulmxA (mulKVmx U) -trmx_mul mxE.
by rewrite !mxE; apply: eq_bigr => a _; rewrite !mxE.
Qed.
Lemma u_sq i : okat inv x W i -> \sum_j W i j ord0 * u inv x W i j ^+ 2 = u inv x W i i.
Proof. by move=> ok; rewrite -[RHS](reproduce contract (cvec inv x W i) ok); apply: eq_bigr => j _; rewrite expr2 mulrA. Qed.
Lemma u_lower i : okat inv x W i -> vm i i <= u inv x W i i.
Proof.
move=> ok; have U := Gm_unit ok.
have E1 : \sum_j W i j ord0 * u inv x W i j * vm i j = vm i i := reproduce contract (dm i) ok.
have E2 : \sum_j m j ord0 * vm i j * vm i j = vm i i := reproduce_m i (dm i) U.
have E3 := u_sq ok.
have Q : 0 <= \sum_j W i j ord0 * (u inv x W i j - vm i j) ^+ 2.
  by apply: sumr_ge0 => j _; apply: mulr_ge0; [exact: W0|apply: sqr_ge0].
have R1 : \sum_j W i j ord0 * vm i j ^+ 2 <= vm i i.
  rewrite -[X in _ <= X]E2; apply: ler_sum => j _; rewrite expr2 mulrA -!mulrA -expr2.
  by apply: ler_wpmul2r; [apply: sqr_ge0|exact: Wm].
have E : \sum_j W i j ord0 * (u inv x W i j - vm i j) ^+ 2 = u inv x W i i - (vm i i + vm i i) + \sum_j W i j ord0 * vm i j ^+ 2.
  transitivity (\sum_j (W i j ord0 * u inv x W i j ^+ 2 - (W i j ord0 * u inv x W i j * vm i j + W i j ord0 * u inv x W i j * vm i j) + W i j ord0 * vm i j ^+ 2)).
    by apply: eq_bigr => j _; move: (W i j ord0) (u inv x W i j) (vm i j) => a b c; clear; ring.
  by rewrite !big_split /= sumrN !big_split /= E1 E3.
move: Q; rewrite E => Q; rewrite -subr_ge0.
apply: le_trans Q _; have -> : u inv x W i i - vm i i = u inv x W i i - (vm i i + vm i i) + vm i i by move: (u inv x W i i) (vm i i) => a b; clear; ring.
by rewrite ler_add2l.
Qed.
Lemma sum_vm : Gm \in unitmx -> \sum_i m i ord0 * vm i i = p%:R.
Proof.
move=> U; have <- : \tr (x *m (invmx Gm *m xtw x m)) = p%:R by rewrite mxtrace_mulC -mulmxA mulVmx // mxtrace1.
rewrite /mxtrace; apply: eq_bigr => i _; rewrite /vm /dm mulmxA [x *m (_ *m _)]mulmxA [in LHS]mxE [in RHS]mxE mulr_sumr.
by apply: eq_bigr => a _; rewrite xtw_entry [_^T _ _]mxE [row _ _ _ _]mxE mulrCA [m i ord0 * _]mulrC.
Qed.
Lemma mask_bounds y s : (0 < n)%N -> robust_fit inv x y w m (fun _ => false) = Ok (s, false) ->
  [/\ p%:R <= shat0 s, rp_enp (robust_diagnostic x y s) <= n%:R & 0 <= rp_edf (robust_diagnostic x y s)].
Proof.
move=> n0; rewrite /robust_fit -/W => E; have D := fit_core_desc E.
have ok i : okat inv x W i by apply: (allP (d_ok D)); rewrite in_range ltn_ord.
have s0E : shat0 s = \sum_i sof inv x W i ord0 i by rewrite (d_sh0 D) /= add0r range_full big_enum.
have s1E : shat1 s = \sum_i \sum_j sof inv x W i ord0 j ^+ 2.
  by rewrite (d_sh1 D) /= add0r range_full big_enum; apply: eq_bigr => i _; rewrite det_row.
have H : 2%:R * shat0 s - shat1 s <= n%:R.
  have -> : 2%:R * shat0 s - shat1 s = \sum_i (2%:R * sof inv x W i ord0 i - \sum_j sof inv x W i ord0 j ^+ 2).
    by rewrite s0E s1E mulr_sumr -sumrN -big_split.
  have -> : n%:R = \sum_(i < n) (1 : F) by rewrite sumr_const card_ord.
  by apply: ler_sum => i _; apply: row_enp.
split=> //.
- have U := Gm_unit (ok (Ordinal n0)); rewrite -(sum_vm U) s0E; apply: ler_sum => i _.
  by rewrite sof_u WE w1 mul1r; apply: ler_wpmul2l => //; apply: u_lower.
- by rewrite /= -subr_ge0 in H *; move: H; congr (0 <= _); move: (shat0 s) (shat1 s) => a b; clear; ring.
Qed.
End T.

Section O.
Variables (F : realFieldType) (n p : nat) (inv : 'M[F]_p -> option 'M[F]_p).
Lemma rss_one (x : 'M[F]_(n, p)) (y y' : 'cV[F]_n) (b : 'M[F]_(p, n)) (k : 'I_n) : (forall j, j != k -> y' j ord0 = y j ord0) ->
  RSS x y' b - RSS x y b = (y' k ord0 - Fitted x b k ord0) ^+ 2 - (y k ord0 - Fitted x b k ord0) ^+ 2.
Proof.
move=> H; have E z : RSS x z b = (z k ord0 - Fitted x b k ord0) ^+ 2 + \sum_(j | j != k) (z j ord0 - Fitted x b j ord0) ^+ 2.
  by rewrite /RSS (bigD1 k) //= !mxE; congr (_ + _); apply: eq_bigr => j _; rewrite !mxE.
rewrite !E; have -> : \sum_(j | j != k) (y' j ord0 - Fitted x b j ord0) ^+ 2 = \sum_(j | j != k) (y j ord0 - Fitted x b j ord0) ^+ 2.
  by apply: eq_bigr => j jk; rewrite H.
by rewrite opprD addrACA subrr addr0.
Qed.
Lemma discarded_main (x : 'M[F]_(n, p)) (y y' : 'cV[F]_n) W (mask : 'cV[F]_n) (k : 'I_n) s s' :
  mask k ord0 = 0 -> (forall j, j != k -> y' j ord0 = y j ord0) ->
  robust_fit inv x y W mask (fun _ => false) = Ok (s, false) ->
  robust_fit inv x y' W mask (fun _ => false) = Ok (s', false) ->
  let fitted_k := \sum_a x k a * betas s a k in
  [/\ betas s' = betas s,
      rp_enp (robust_diagnostic x y' s') = rp_enp (robust_diagnostic x y s),
      rp_edf (robust_diagnostic x y' s') = rp_edf (robust_diagnostic x y s),
      rp_rss (robust_diagnostic x y' s') - rp_rss (robust_diagnostic x y s) = (y' k ord0 - fitted_k) ^+ 2 - (y k ord0 - fitted_k) ^+ 2
    & forall a i, rp_se2 (robust_diagnostic x y' s') a i * rp_rss (robust_diagnostic x y s) =
                  rp_se2 (robust_diagnostic x y s) a i * rp_rss (robust_diagnostic x y' s')].
Proof.
move=> mk Hy E E' fk; have [A1 A2 _ A4 _] := C44_indep E E'.
have B : betas s' = betas s.
  apply: esym; apply: (no_influence_main _ E E') => j mj; split=> //; rewrite Hy //.
  by apply: contraNneq mj => ->; rewrite mk.
split=> //; rewrite /= ?A1 ?A2 //; last first.
  move=> a i; rewrite B A4 [in LHS]mxE [in RHS]mxE; set e := (_ + shat1 s')^-1.
  by move: (RSS x y' _) (RSS x y _) e (se2 s' a i) => c1 c2 c3 c4; clear; ring.
rewrite B (rss_one _ _ Hy).
by have -> : Fitted x (betas s) k ord0 = fk by rewrite mxE; apply: eq_bigr => a _; rewrite ?mxE.
Qed.
Lemma unbounded_main (x : 'M[F]_(n, p)) (y : 'cV[F]_n) W (mask : 'cV[F]_n) (k : 'I_n) s (B : F) :
  mask k ord0 = 0 ->
  robust_fit inv x y W mask (fun _ => false) = Ok (s, false) ->
  0 < rp_edf (robust_diagnostic x y s) ->
  exists (y' : 'cV[F]_n) s', [/\ forall j, j != k -> y' j ord0 = y j ord0,
    robust_fit inv x y' W mask (fun _ => false) = Ok (s', false),
    betas s' = betas s & B < rp_sigma2 (robust_diagnostic x y' s')].
Proof.
move=> mk E ed; pose f := Fitted x (betas s) k ord0; pose edf := rp_edf (robust_diagnostic x y s).
pose t := 1 + `|B| * edf.
pose y' : 'cV[F]_n := \col_j (if j == k then f + t else y j ord0).
have Hy j : j != k -> y' j ord0 = y j ord0 by rewrite mxE => /negbTE ->.
have [s' E'] := okat_y y' E.
have [A1 A2 _ _ _] := C44_indep E E'; have [Bt _ ED _ _] := discarded_main mk Hy E E'.
exists y', s'; split=> //.
have -> : rp_sigma2 (robust_diagnostic x y' s') = RSS x y' (betas s') / edf by rewrite /edf -ED.
rewrite ltr_pdivl_mulr // Bt.
have T : t ^+ 2 <= RSS x y' (betas s).
  rewrite /RSS (bigD1 k) //= !mxE eqxx.
  have -> : f + t - \sum_a x k a * betas s a k = t.
    by rewrite /f mxE addrAC; set z := _ - _; have -> : z = 0; [apply/eqP; rewrite subr_eq0|rewrite add0r].
  by rewrite ler_addl; apply: sumr_ge0 => j _; apply: sqr_ge0.
have t1 : 1 <= t by rewrite ler_addl mulr_ge0 ?normr_ge0 // ltW.
apply: lt_le_trans T; apply: (@lt_le_trans _ _ t).
  by apply: (@le_lt_trans _ _ (`|B| * edf)); [apply: ler_wpmul2r; [exact: ltW|exact: ler_norm]|rewrite ltr_addr ltr01].
by rewrite expr2 ler_pmulr // (lt_le_trans ltr01 t1).
Qed.
End O.

Section I.
Variables (F : realFieldType) (n : nat).
Lemma enp_main (y mask : 'cV[F]_n) : (forall j, mask j ord0 = 0 \/ mask j ord0 = 1) ->
  let K := \sum_j mask j ord0 in 0 < K ->
  exists s, [/\ robust_fit (@exact_inv F 1) (const_mx 1) y (fun _ => const_mx 1) mask (fun _ => false) = Ok (s, false),
    shat0 s = 1, rp_enp (robust_diagnostic (const_mx 1) y s) = 2%:R - n%:R / K
    & rp_edf (robust_diagnostic (const_mx 1) y s) = n%:R - 2%:R + n%:R / K] /\
    let mean := (\sum_j mask j ord0 * y j ord0) / K in
    let sigma2 := (\sum_j (y j ord0 - mean) ^+ 2) / (n%:R - 2%:R + n%:R / K) in
    [/\ forall i, betas s ord0 i = mean, rp_sigma2 (robust_diagnostic (const_mx 1) y s) = sigma2
      & forall i, rp_se2 (robust_diagnostic (const_mx 1) y s) ord0 i = sigma2 / K].
Proof.
move=> m01 K K0; pose x : 'M[F]_(n, 1) := const_mx 1; pose W := fun i : 'I_n => \col_j ((const_mx 1 : 'cV[F]_n) j ord0 * mask j ord0).
have GK i : (xtw x (W i) *m x) ord0 ord0 = K by rewrite mxE; apply: eq_bigr => j _; rewrite !mxE !mulr1 !mul1r.
have [s E] : exists s, robust_fit (@exact_inv F 1) x y (fun _ => const_mx 1) mask (fun _ => false) = Ok (s, false).
  by rewrite /robust_fit; apply: fit_total => i _; rewrite /exact_inv unitmxE det_mx11 unitfE -/(W i) GK (lt0r_neq0 K0).
have D := fit_core_desc E.
have ok i : okat (@exact_inv F 1) x W i by apply: (allP (d_ok D)); rewrite in_range ltn_ord.
have BK i : Bof (@exact_inv F 1) x W i ord0 ord0 = K^-1.
  have := Bof_inv (@exact_inv_contract F 1) (ok i) => /matrixP /(_ ord0 ord0).
  by rewrite mxE big_ord_recl big_ord0 addr0 GK [in RHS]mxE /= => H; rewrite -[LHS](mulfK (lt0r_neq0 K0)) H mul1r.
have SE i j : sof (@exact_inv F 1) x W i ord0 j = mask j ord0 / K.
  rewrite /sof !(mxE, big_ord_recl, big_ord0) BK.
  by rewrite ?(mul1r, mulr1, addr0, add0r) mulrC.
have s0E : shat0 s = 1.
  rewrite (d_sh0 D) /= add0r range_full big_enum /=.
  by under eq_bigr => i _ do rewrite SE; rewrite -mulr_suml divff // gt_eqF.
have s1E : shat1 s = n%:R / K.
  rewrite (d_sh1 D) /= add0r range_full big_enum /=.
  transitivity (\sum_(i < n) K^-1); last by rewrite sumr_const card_ord mulr_natl.
  apply: eq_bigr => i _; rewrite det_row.
  under eq_bigr => j _ do rewrite SE.
  transitivity (\sum_j mask j ord0 * (K^-1 * K^-1)).
    by apply: eq_bigr => j _; case: (m01 j) => ->; rewrite ?mul0r ?mul1r expr2 ?mul0r.
  by rewrite -mulr_suml mulrA divff ?mul1r // gt_eqF.
have bE i : betas s ord0 i = (\sum_j mask j ord0 * y j ord0) / K.
  have ir : i \in range n 0 n by rewrite in_range ltn_ord.
  have /colP /(_ ord0) := d_betas D ir; rewrite [LHS]mxE => ->.
  rewrite [LHS]mxE big_ord_recl big_ord0 addr0 BK mulrC; congr (_ / _).
  by rewrite mxE; apply: eq_bigr => j _; rewrite !mxE !mul1r.
have vE i : se2 s ord0 i = K^-1.
  have ir : i \in range n 0 n by rewrite in_range ltn_ord.
  have /colP /(_ ord0) := d_se D ir; rewrite [LHS]mxE => ->.
  rewrite mxE; transitivity (\sum_j mask j ord0 * (K^-1 * K^-1)).
    apply: eq_bigr => j _; have -> : cof (@exact_inv F 1) x W i ord0 j = mask j ord0 / K.
      by rewrite mxE big_ord_recl big_ord0 addr0 BK !mxE !mul1r mulrC.
    by case: (m01 j) => ->; rewrite ?mul0r ?mul1r expr2 ?mul0r.
  by rewrite -mulr_suml mulrA divff ?mul1r // gt_eqF.
exists s; split; first by split=> //=; rewrite s0E s1E mulr1.
have RE : RSS (const_mx 1) y (betas s) = \sum_j (y j ord0 - (\sum_j mask j ord0 * y j ord0) / K) ^+ 2.
  by apply: eq_bigr => j _; rewrite !mxE big_ord_recl big_ord0 addr0 bE mxE mul1r.
by split=> // [|i]; rewrite /= ?[in LHS]mxE s0E s1E mulr1 RE ?vE.
Qed.
End I.

(** Three observations, [k] of them kept *)
Definition keep (k : nat) : 'cV[rat]_3 := \col_i (if (i < k)%N then 1 else 0).
Lemma keep01 k j : keep k j ord0 = 0 \/ keep k j ord0 = 1.
Proof. by rewrite mxE; case: ifP; [right|left]. Qed.
Lemma keep_sum1 : \sum_j keep 1 j ord0 = 1. Proof. by rewrite !big_ord_recl big_ord0 !mxE. Qed.
Lemma keep_sum2 : \sum_j keep 2 j ord0 = 2%:R. Proof. by rewrite !big_ord_recl big_ord0 !mxE. Qed.
Lemma negative_main (y : 'cV[rat]_3) : exists s,
  robust_fit (@exact_inv _ 1) (const_mx 1) y (fun _ => const_mx 1) (keep 1) (fun _ => false) = Ok (s, false) /\
  rp_enp (robust_diagnostic (const_mx 1) y s) = -1.
Proof.
have [|s [[E _ H _] _]] := @enp_main _ 3 y (keep 1) (keep01 1); first by rewrite keep_sum1.
by exists s; split=> //; rewrite H keep_sum1.
Qed.
Lemma keep2_case (y : 'cV[rat]_3) : exists s,
  [/\ robust_fit (@exact_inv _ 1) (const_mx 1) y (fun _ => const_mx 1) (keep 2) (fun _ => false) = Ok (s, false),
      shat0 s = 1 & 0 < rp_edf (robust_diagnostic (const_mx 1) y s)].
Proof.
have [|s [[E S _ H] _]] := @enp_main _ 3 y (keep 2) (keep01 2); first by rewrite keep_sum2.
by exists s; split=> //; rewrite H keep_sum2.
Qed.
