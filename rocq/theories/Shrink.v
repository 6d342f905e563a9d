(** Shrinkage of the local ridge regression. *)
From mathcomp Require Import all_ssreflect all_algebra ring.
From Verif Require Import Outcome GwrModel GwrSpec GwrProofs GwrCases RidgeFitModel RidgeFitSpec RidgeFitProofs RidgeFitCases.
Set Implicit Arguments. Unset Strict Implicit. Unset Printing Implicit Defensive.
Import Order.TTheory GRing.Theory Num.Theory.
Local Open Scope ring_scope.

Section S.
Variables (F : realFieldType) (n p : nat).
Implicit Types (x : 'M[F]_(n, p)) (y w : 'cV[F]_n) (b : 'cV[F]_p).
Definition pen x b : F := \sum_a penalty_scale x a * b a ord0 ^+ 2.
Lemma penE x y w l b : penalised x y w l b = wrss x y w b + l * pen x b. Proof. by []. Qed.
Lemma exchange x y w l1 l2 b1 b2 : 0 <= l1 <= l2 -> ridge_minimiser x y w l1 b1 -> ridge_minimiser x y w l2 b2 ->
  pen x b2 <= pen x b1 /\ wrss x y w b1 <= wrss x y w b2.
Proof.
move=> /andP [l0 l12] M1 M2; have := proj1 (M1 b2); have := proj1 (M2 b1); rewrite !penE.
case: (ltrgtP l1 l2) l12 => // [lt|eq] _; last first.
  move=> _ _; have [E1 U1] := M1 b2; have [E2 _] := M2 b1; rewrite -eq in E2.
  by have -> : b2 = b1 by apply: U1; apply/le_anti; rewrite E1 E2.
set f1 := wrss _ _ _ b1; set f2 := wrss _ _ _ b2; set g1 := pen _ b1; set g2 := pen _ b2 => H2 H1.
have G : g2 <= g1.
  have := ler_add H1 H2.
  rewrite [X in _ <= X]addrACA [f2 + f1]addrC [X in X <= _]addrACA ler_add2l -subr_ge0.
  have -> : l1 * g2 + l2 * g1 - (l1 * g1 + l2 * g2) = (l2 - l1) * (g1 - g2).
    by move: l1 l2 g1 g2 {l0 lt M1 M2 H1 H2} => A B C D; ring.
  by rewrite pmulr_rge0 ?subr_gt0 // subr_ge0.
split=> //; have := le_trans H1 (ler_add (lexx f2) (ler_wpmul2l l0 G)).
by rewrite ler_add2r.
Qed.
Lemma scale_ge0 x a : (1 < n)%N -> 0 <= penalty_scale x a.
Proof.
move=> n1; rewrite /penalty_scale; case: ifP => _; first exact: ler01.
rewrite /sample_variance divr_ge0 //; first by apply: sumr_ge0 => j _; exact: sqr_ge0.
by rewrite subr_ge0 (ler_nat F 1 n) ltnW.
Qed.
Lemma null_fit x y w l : penalised x y w l 0 = \sum_j w j ord0 * y j ord0 ^+ 2.
Proof.
rewrite penE /pen [X in _ + _ * X]big1 ?mulr0 ?addr0; last by move=> a _; rewrite mxE expr0n /= mulr0.
by rewrite /wrss; apply: eq_bigr => j _; rewrite mulmx0 mxE subr0.
Qed.
Lemma pen_bound x y w l b a : (1 < n)%N -> 0 <= l -> (forall j, 0 <= w j ord0) -> ridge_minimiser x y w l b ->
  l * (penalty_scale x a * b a ord0 ^+ 2) <= \sum_j w j ord0 * y j ord0 ^+ 2.
Proof.
move=> n1 l0 w0 M; rewrite -(null_fit x y w l); apply: le_trans (proj1 (M 0)); rewrite penE.
have W0 : 0 <= wrss x y w b by rewrite /wrss; apply: sumr_ge0 => j _; rewrite mulr_ge0 // sqr_ge0.
apply: le_trans (_ : l * pen x b <= _); last by rewrite ler_addr.
apply: ler_wpmul2l => //; rewrite /pen (bigD1 a) //= ler_addl.
by apply: sumr_ge0 => k _; rewrite mulr_ge0 ?sqr_ge0 ?scale_ge0.
Qed.
Lemma variance_scale (v : 'cV[F]_n) c : sample_variance (\col_j (v j ord0 * c)) = c ^+ 2 * sample_variance v.
Proof.
rewrite /sample_variance mulrA mulr_sumr; congr (_ / _); apply: eq_bigr => j _; rewrite mxE.
have -> : \sum_k (\col_j (v j ord0 * c)) k ord0 = (\sum_k v k ord0) * c.
  by rewrite mulr_suml; apply: eq_bigr => k _; rewrite mxE.
by rewrite mulrAC -mulrBl exprMn mulrC.
Qed.
Definition rescale x (c : 'I_p -> F) : 'M[F]_(n, p) := \matrix_(j, a) (x j a * c a).
Lemma penalised_rescale x y w l c b : (forall a, nat_of_ord a = 0%N -> c a = 1) ->
  penalised (rescale x c) y w l b = penalised x y w l (\col_a (c a * b a ord0)).
Proof.
move=> c1; rewrite !penE; congr (_ + _ * _).
  rewrite /wrss; apply: eq_bigr => j _; congr (_ * (_ - _) ^+ 2); rewrite !mxE; apply: eq_bigr => a _.
  by rewrite !mxE mulrA.
apply: eq_bigr => a _; rewrite !mxE exprMn [in RHS]mulrA; congr (_ * b a ord0 ^+ 2); rewrite /penalty_scale.
case: eqP => [a0|_]; first by rewrite c1 // expr1n mulr1.
rewrite mulrC -variance_scale; congr sample_variance; by apply/colP => j; rewrite !mxE.
Qed.
Lemma units x y w l c b b' : (forall a, c a != 0) -> (forall a, nat_of_ord a = 0%N -> c a = 1) ->
  ridge_minimiser x y w l b -> ridge_minimiser (rescale x c) y w l b' -> forall a, b' a ord0 = b a ord0 / c a.
Proof.
move=> c0 c1 M M' a.
pose b2 : 'cV[F]_p := \col_a (b a ord0 / c a).
have E2 : penalised (rescale x c) y w l b2 = penalised x y w l b.
  rewrite penalised_rescale //; congr penalised; apply/colP => k; rewrite !mxE mulrC divfK //.
have [L1 U1] := M' b2; have [L2 _] := M (\col_a (c a * b' a ord0)).
rewrite -penalised_rescale // -E2 in L2.
by rewrite -(U1 (le_anti (introT andP (conj L2 L1)))) mxE.
Qed.
Variables (inv : 'M[F]_p -> option 'M[F]_p) (sq : F -> F).
Hypothesis contract : inverse_contract inv.
Lemma fit_exchange x y (W : 'I_n -> 'cV[F]_n) lam1 lam2 t1 t2 s1 s2 r1 r2 : (1 < n)%N -> (forall i, exact_roots sq x (W i)) ->
  (forall i, 0 <= lam1 i <= lam2 i) ->
  lc_fit inv sq t1 x y W lam1 (fun _ => false) = Ok (s1, r1) -> lc_fit inv sq t2 x y W lam2 (fun _ => false) = Ok (s2, r2) ->
  forall i b1 b2, lc_betas s1 i = Some b1 -> lc_betas s2 i = Some b2 ->
  \sum_a penalty_scale x a * b2 a ord0 ^+ 2 <= \sum_a penalty_scale x a * b1 a ord0 ^+ 2 /\ wrss x y (W i) b1 <= wrss x y (W i) b2.
Proof.
move=> n1 R L E1 E2 i b1 b2 B1 B2.
have L1 k : 0 <= lam1 k by have /andP [] := L k.
have L2 k : 0 <= lam2 k by have /andP [A B] := L k; exact: le_trans A B.
exact: (exchange (L i) (lc_coefficients contract n1 R L1 E1 B1) (lc_coefficients contract n1 R L2 E2 B2)).
Qed.
Lemma fit_bound x y (W : 'I_n -> 'cV[F]_n) lam t s r : (1 < n)%N -> (forall i, exact_roots sq x (W i)) -> (forall i, 0 <= lam i) ->
  lc_fit inv sq t x y W lam (fun _ => false) = Ok (s, r) -> forall i b, lc_betas s i = Some b ->
  forall a, lam i * (penalty_scale x a * b a ord0 ^+ 2) <= \sum_j W i j ord0 * y j ord0 ^+ 2.
Proof.
move=> n1 R L E i b B a; apply: (pen_bound a n1 (L i) _ (lc_coefficients contract n1 R L E B)).
have [_ H _] := lc_fit_desc E; have := H i; rewrite B; exact: ridgelm_nonneg.
Qed.
Lemma fit_units x x' y (W : 'I_n -> 'cV[F]_n) lam c t t' s s' r r' : (1 < n)%N ->
  (forall i, exact_roots sq x (W i)) -> (forall i, exact_roots sq x' (W i)) -> (forall i, 0 <= lam i) ->
  (forall a, c a != 0) -> (forall a, nat_of_ord a = 0%N -> c a = 1) -> (forall j a, x' j a = x j a * c a) ->
  lc_fit inv sq t x y W lam (fun _ => false) = Ok (s, r) -> lc_fit inv sq t' x' y W lam (fun _ => false) = Ok (s', r') ->
  forall i b b', lc_betas s i = Some b -> lc_betas s' i = Some b' -> forall a, b' a ord0 = b a ord0 / c a.
Proof.
move=> n1 R R' L c0 c1 X E E' i b b' B B'.
have M' := lc_coefficients contract n1 R' L E' B'.
have EX : x' = rescale x c by apply/matrixP => j a; rewrite X mxE.
rewrite EX in M'; exact: (units c0 c1 (lc_coefficients contract n1 R L E B) M').
Qed.
End S.
Definition ry1 : 'cV[rat]_3 := \col_j (nth 0 [:: 1; 3%:R; 2%:R] j).
Lemma shift_var : variance ry1 != 0.
Proof.
rewrite /variance.
rewrite /=.
rewrite !big_ord_recl.
rewrite !big_ord0.
rewrite !mxE.
by vm_compute.
Qed.
Lemma shift_ry (j : 'I_3) : ry1 j ord0 = ry j ord0 + 1.
Proof. rewrite !mxE. by case: j => [[|[|[|//]]] h]; apply/eqP; vm_compute. Qed.
Lemma shift_xt : rx^T *m (const_mx 1 : 'cV_3) = \col_a (if nat_of_ord a == 0%N then 3%:R else 0).
Proof.
apply/colP => a; rewrite !mxE !big_ord_recl big_ord0 !mxE.
by case: a => [[|[|//]] h]; apply/eqP; vm_compute.
Qed.
Lemma shift_fit l (j : 'I_3) : (rx *m (rK l *m (rx^T *m (const_mx 1 : 'cV_3)))) j ord0 = 3%:R / (3%:R + l).
Proof.
have -> : rK l *m (rx^T *m (const_mx 1 : 'cV_3)) = \col_a (if nat_of_ord a == 0%N then 3%:R / (3%:R + l) else 0).
  rewrite shift_xt; apply/colP => a; rewrite mxE big_ord_recl big_ord1 !mxE -!val_eqE.
  case: a => [[|[|//]] h]; cbn [nat_of_ord val eqn eqtype.eq_op].
    by rewrite /= mulr0 addr0 mulrC.
  by rewrite /= mulr0 addr0 mul0r.
rewrite mxE big_ord_recl big_ord1 !mxE /=.
by rewrite mulr0 addr0 mul1r.
Qed.
Lemma r_shift l : 0 < l -> exists s s',
  [/\ lc_fit (@exact_inv _ 2) id (0, 0) rx ry rW (fun _ => l) (fun _ => false) = Ok (s, false),
      lc_fit (@exact_inv _ 2) id (0, 0) rx ry1 rW (fun _ => l) (fun _ => false) = Ok (s', false) &
      forall i, exists b b', [/\ lc_betas s i = Some b, lc_betas s' i = Some b' & forall j, (rx *m b') j ord0 < (rx *m b) j ord0 + 1]].
Proof.
move=> l0.
have [s [E [B _]]] := r_fit (0, 0) (ltW l0) ry_var.
have [s' [E' [B' _]]] := r_fit (0, 0) (ltW l0) shift_var.
exists s, s'; split=> // i; rewrite B B'; do 2 eexists; split=> // j.
have -> : ry1 = ry + const_mx 1 by apply/colP => k; rewrite shift_ry [RHS]mxE; congr (_ + _); rewrite mxE.
have -> : rx *m (rK l *m (rx^T *m (ry + const_mx 1))) = rx *m (rK l *m (rx^T *m ry)) + rx *m (rK l *m (rx^T *m const_mx 1)) by rewrite !mulmxDr.
rewrite [X in X < _]mxE ltr_add2l.
have N : 0 < 3%:R + l by rewrite addr_gt0.
rewrite shift_fit.
by rewrite ltr_pdivr_mulr // mul1r ltr_addl.
Qed.
Lemma shrink_case : (forall i, exact_roots id rx (rW i)) /\ exists s1 s2,
  lc_fit (@exact_inv _ 2) id (0, 0) rx ry rW (fun _ => 1) (fun _ => false) = Ok (s1, false) /\
  lc_fit (@exact_inv _ 2) id (0, 0) rx ry rW (fun _ => 2%:R) (fun _ => false) = Ok (s2, false) /\
  forall i, exists b1 b2, lc_betas s1 i = Some b1 /\ lc_betas s2 i = Some b2.
Proof.
split; first exact: r_roots.
have [s [E [B _]]] := r_fit (0, 0) (ler01 : 0 <= (1 : rat)) ry_var.
have [s' [E' [B' _]]] := r_fit (0, 0) (ler0n _ 2 : 0 <= (2%:R : rat)) ry_var.
by exists s, s'; do 2 split=> //; move=> i; rewrite B B'; do 2 eexists.
Qed.
