From mathcomp Require Import all_ssreflect all_algebra ring.
From Verif Require Import Outcome GwrModel GwrSpec GwrProofs GwrCases LevCases LimMain.
Set Implicit Arguments. Unset Strict Implicit. Unset Printing Implicit Defensive.
Import Order.TTheory GRing.Theory Num.Theory.
Local Open Scope ring_scope.

Section C.
Variables (F : realFieldType) (n p : nat).
Lemma sensitivity_sum (inv : 'M[F]_p -> option 'M[F]_p) storeS storeC lo hi
    (x : 'M[F]_(n, p)) (y : 'cV[F]_n) (W W' : 'I_n -> 'cV[F]_n) s s' (i : 'I_n) d : inverse_contract inv ->
  fit_core inv storeS storeC lo hi x y W (fun _ => false) = Ok (s, false) ->
  fit_core inv storeS storeC lo hi x y W' (fun _ => false) = Ok (s', false) ->
  (lo <= i < hi)%N -> (forall j, 0 <= W i j ord0) -> 0 <= d < 1 ->
  (forall j, `|W' i j ord0 - W i j ord0| <= d * W i j ord0) ->
  (1 - d) ^+ 2 * (\sum_j W i j ord0 * (\sum_a x j a * (betas s' a i - betas s a i)) ^+ 2) <=
  d ^+ 2 * \sum_j W i j ord0 * (y j ord0 - \sum_a x j a * betas s a i) ^+ 2.
Proof.
move=> c E E' ir w0 d01 near; have := sensitivity_main c E E' ir w0 d01 near; congr (_ * _ <= _ * _).
- apply: eq_bigr => j _; congr (_ * _ ^+ 2); rewrite [LHS]mxE; apply: eq_bigr => a _; by rewrite !mxE.
- apply: eq_bigr => j _; congr (_ * (_ - _) ^+ 2); rewrite [LHS]mxE; apply: eq_bigr => a _; by rewrite !mxE.
Qed.
Lemma global_sum (inv : 'M[F]_p -> option 'M[F]_p) storeS storeC lo hi
    (x : 'M[F]_(n, p)) (y : 'cV[F]_n) (W : 'I_n -> 'cV[F]_n) s (b : 'cV[F]_p) (i : 'I_n) d : inverse_contract inv ->
  x^T *m (y - x *m b) = 0 -> fit_core inv storeS storeC lo hi x y W (fun _ => false) = Ok (s, false) ->
  (lo <= i < hi)%N -> 0 <= d < 1 -> (forall j, `|W i j ord0 - 1| <= d) ->
  (1 - d) ^+ 2 * (\sum_j (\sum_a x j a * (betas s a i - b a ord0)) ^+ 2) <=
  d ^+ 2 * \sum_j (y j ord0 - \sum_a x j a * b a ord0) ^+ 2.
Proof.
move=> c B E ir d01 near; have := global_main c B E ir d01 near; congr (_ * _ <= _ * _).
- apply: eq_bigr => j _; congr (_ ^+ 2); rewrite [LHS]mxE; apply: eq_bigr => a _; by rewrite !mxE.
- apply: eq_bigr => j _; congr (_ ^+ 2); by rewrite !mxE.
Qed.
Lemma limit_any (inv : 'M[F]_p -> option 'M[F]_p) storeS storeC lo hi
    (x : 'M[F]_(n, p)) (y : 'cV[F]_n) (b : 'cV[F]_p) (e : F) : inverse_contract inv ->
  (forall v : 'cV[F]_p, x *m v = 0 -> v = 0) -> x^T *m (y - x *m b) = 0 -> 0 < e ->
  exists2 d, 0 < d & forall (W : 'I_n -> 'cV[F]_n) s (i : 'I_n),
    fit_core inv storeS storeC lo hi x y W (fun _ => false) = Ok (s, false) ->
    (lo <= i < hi)%N -> (forall j, `|W i j ord0 - 1| <= d) -> forall a, `|betas s a i - b a ord0| <= e.
Proof. by move=> c; apply: limit_main. Qed.
Lemma normal_unit (x : 'M[F]_(n, p)) (w : 'cV[F]_n) : (forall v : 'cV[F]_p, x *m v = 0 -> v = 0) -> (forall j, 0 < w j ord0) ->
  xtw x w *m x \in unitmx.
Proof.
move=> H w0; rewrite -row_free_unit; apply: inj_row_free => v E.
pose z := x *m v^T.
have Q : \sum_j w j ord0 * z j ord0 ^+ 2 = 0.
  have : (v *m (xtw x w *m x) *m v^T) ord0 ord0 = 0 by rewrite E mul0mx mxE.
  rewrite mulmxA -mulmxA mxE => {2}<-; apply: eq_bigr => j _.
  rewrite -/z expr2 mulrA; congr (_ * _); rewrite [RHS]mxE /z mxE mulr_sumr; apply: eq_bigr => a _.
  by rewrite [_^T _ _]mxE [xtw _ _ _ _]mxE; move: (w j ord0) (x j a) (v ord0 a); clear=> ? ? ?; ring.
have Z : z = 0.
  apply/matrixP => j k; rewrite ord1 [RHS]mxE.
  have /eqP := Q; rewrite psumr_eq0; last by move=> k' _; rewrite mulr_ge0 ?sqr_ge0 // ltW.
  move/allP => /(_ j); rewrite mem_index_enum => /(_ isT); by rewrite mulf_eq0 gt_eqF //= sqrf_eq0 => /eqP.
by apply: trmx_inj; rewrite trmx0; apply: H.
Qed.
Lemma limit_full storeS storeC lo hi (x : 'M[F]_(n, p)) (y : 'cV[F]_n) (b : 'cV[F]_p) (e : F) :
  (forall v : 'cV[F]_p, x *m v = 0 -> v = 0) -> x^T *m (y - x *m b) = 0 -> 0 < e ->
  exists2 d, 0 < d & forall W : 'I_n -> 'cV[F]_n,
    (forall i j, `|W i j ord0 - 1| <= d) ->
    exists s, fit_core (@exact_inv F p) storeS storeC lo hi x y W (fun _ => false) = Ok (s, false) /\
      forall (i : 'I_n) a, (lo <= i < hi)%N -> `|betas s a i - b a ord0| <= e.
Proof.
move=> H B e0; have [d d0 L] := limit_any storeS storeC lo hi (@exact_inv_contract F p) H B e0.
have h0 : 0 < 2%:R^-1 :> F by rewrite invr_gt0 ltr0n.
exists (Num.min d 2%:R^-1); first by rewrite lt_minr d0.
move=> W near.
have P i j : 0 < W i j ord0.
  have := near i j; rewrite le_minr => /andP [_]; rewrite ler_norml => /andP [+ _].
  rewrite ler_subr_addr => /(lt_le_trans _); apply; rewrite addrC subr_gt0 invf_lt1 ?ltr0n // ltr1n //.
have [s E] : exists s, fit_core (@exact_inv F p) storeS storeC lo hi x y W (fun _ => false) = Ok (s, false).
  by apply: fit_total => i _; rewrite /exact_inv normal_unit.
exists s; split=> // i a ir; apply: (L W s i E ir) => j; apply: le_trans (near i j) _; by rewrite le_minl lexx.
Qed.
End C.

Lemma near_case :
  [/\ exists s, fit_core (@exact_inv _ 1) true true 0 4 (one_x _ 4) (\col_j j%:R) (fun _ => const_mx (1 : rat)) (fun _ => false) = Ok (s, false),
      exists s, fit_core (@exact_inv _ 1) true true 0 4 (one_x _ 4) (\col_j j%:R) (corner (2%:R^-1 : rat)) (fun _ => false) = Ok (s, false) &
      forall i j, `|corner (2%:R^-1 : rat) i j ord0 - (const_mx 1 : 'cV_4) j ord0| <= 3%:R / 4%:R * (const_mx 1 : 'cV_4) j ord0].
Proof.
split; first exact: uniform_case.
- by have [_ _ [s [E _]]] := corner_case; exists s.
- by move=> i j; rewrite !mxE; case: ifP => // _; case: ifP.
Qed.
Lemma mean_case : (one_x [realFieldType of rat] 4)^T *m (\col_j j%:R - one_x [realFieldType of rat] 4 *m const_mx (3%:R / 2%:R)) = 0.
Proof.
apply/matrixP => a b; rewrite !ord1 !mxE !big_ord_recr big_ord0 /= !mxE !big_ord1 !mxE; by apply/eqP.
Qed.
Lemma mean_independent : forall v : 'cV[rat]_1, one_x _ 4 *m v = 0 -> v = 0.
Proof.
move=> v /matrixP /(_ ord0 ord0); rewrite !mxE big_ord1 !mxE mul1r => E; apply/matrixP => a b; by rewrite !ord1 mxE.
Qed.
