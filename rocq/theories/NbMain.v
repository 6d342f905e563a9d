From mathcomp Require Import all_ssreflect all_algebra.
From Verif Require Import Outcome GwrModel GwrSpec GwrProofs.
Set Implicit Arguments. Unset Strict Implicit. Unset Printing Implicit Defensive.
Import GRing.Theory.
Local Open Scope ring_scope.

Section N.
Variables (F : realFieldType) (n p : nat).
Lemma rank_neighbours (x : 'M[F]_(n, p)) (w : 'cV[F]_n) : (\rank (xtw x w) <= #|[set j | w j ord0 != 0%R]|)%N.
Proof.
set S := [set j | _].
pose A := \matrix_(a < p, k < #|S|) xtw x w a (enum_val k).
pose B := \matrix_(k < #|S|, j < n) ((enum_val k == j)%:R : F).
suff -> : xtw x w = A *m B by apply: mulmx_max_rank.
apply/matrixP => a j; rewrite [RHS]mxE.
have AE k : A a k = xtw x w a (enum_val k) by rewrite [LHS]mxE.
have BE k : B k j = (enum_val k == j)%:R by rewrite [LHS]mxE.
under eq_bigr do rewrite AE BE.
case: (boolP (j \in S)) => jS.
  rewrite (bigD1 (enum_rank_in jS j)) //= enum_rankK_in // eqxx mulr1 big1 ?addr0 // => k kj.
  case: eqP => [E|_]; last by rewrite mulr0.
  by case/eqP: kj; apply: enum_val_inj; rewrite enum_rankK_in.
rewrite big1 => [|k _].
  by move: jS; rewrite inE negbK xtw_entry => /eqP ->; rewrite mulr0.
case: eqP => [E|_]; last by rewrite mulr0.
by case/negP: jS; rewrite -E; apply: enum_valP.
Qed.
Lemma inverse_neighbours (x : 'M[F]_(n, p)) (w : 'cV[F]_n) (B : 'M[F]_p) : B *m (xtw x w *m x) = 1%:M ->
  (p <= #|[set j | w j ord0 != 0%R]|)%N.
Proof.
move=> E; rewrite -{1}(mxrank1 F p) -E.
apply: leq_trans (mxrankM_maxr _ _) _; apply: leq_trans (mxrankM_maxl _ _) _; exact: rank_neighbours.
Qed.
Variable inv : 'M[F]_p -> option 'M[F]_p.
Hypothesis contract : inverse_contract inv.
Lemma fit_neighbours storeS storeC lo hi x y (W : 'I_n -> 'cV[F]_n) s :
  fit_core inv storeS storeC lo hi x y W (fun _ => false) = Ok (s, false) ->
  forall i : 'I_n, (lo <= i < hi)%N -> (p <= #|[set j | W i j ord0 != 0%R]|)%N.
Proof.
move=> /fit_core_desc D i ir.
have ok : okat inv x W i by apply: (allP (d_ok D)); rewrite in_range.
exact: (inverse_neighbours (Bof_inv contract ok)).
Qed.
Lemma loop_each m (T : Type) (step : 'I_m -> T -> outcome T) idx : forall st st',
  loop step (fun _ => false) idx st = Ok (st', false) -> forall i, i \in idx -> exists s s', step i s = Ok s'.
Proof.
elim: idx => [|k t IH] st st' //=.
case E: (step k st) => [s'| |] // H i; rewrite in_cons => /orP [/eqP ->|it]; first by exists st, s'.
exact: (IH _ _ H i it).
Qed.
Lemma cv_neighbours lo hi x y (W : 'I_n -> 'cV[F]_n) b :
  cv_core inv lo hi x y W (fun _ => false) = Ok (b, false) ->
  forall i : 'I_n, (lo <= i < hi)%N -> (p <= #|[set j | (j != i) && (W i j ord0 != 0%R)]|)%N.
Proof.
move=> H i ir.
have [s [s' E]] : exists s s', cv_step inv x y W i s = Ok s' by apply: (loop_each H); rewrite in_range.
move: E; rewrite /cv_step; case E: (inv _) => [B|] // _.
have := inverse_neighbours (contract E).
have -> : [set j | zero_at i (W i) j ord0 != 0%R] = [set j | (j != i) && (W i j ord0 != 0%R)].
  by apply/setP => j; rewrite !inE mxE; case: (j == i); rewrite ?eqxx.
by [].
Qed.
Lemma criterion_neighbours x y (W : 'I_n -> 'cV[F]_n) terminated (i : 'I_n) :
  (#|[set j | (j != i) && (W i j ord0 != 0%R)]| < p)%N -> criterion_cv inv x y W (fun _ => false) terminated = None.
Proof.
move=> L; rewrite /criterion_cv; case E: (cv_core _ _ _ _ _ _ _) => [[b st]| |] //.
case: st E => E; first by rewrite orbT.
by move: L; rewrite ltnNge (cv_neighbours E) // ltn_ord.
Qed.
End N.
Lemma predict_neighbours (F : realFieldType) n p m (inv : 'M[F]_p -> option 'M[F]_p) (x : 'M[F]_(n, p)) y (Wl : 'I_m -> 'cV[F]_n) b :
  inverse_contract inv -> predict_core inv x y Wl (fun _ => false) = Ok (b, false) ->
  forall i, (p <= #|[set j | Wl i j ord0 != 0%R]|)%N.
Proof.
move=> contract H i.
have [s [s' E]] : exists s s', predict_step inv x y Wl i s = Ok s' by apply: (loop_each H); rewrite mem_enum.
move: E; rewrite /predict_step; case E: (inv _) => [B|] // _.
exact: (inverse_neighbours (contract _ _ E)).
Qed.
