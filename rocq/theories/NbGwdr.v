(** The neighbours and the limits of the regression with several dimensions. *)
From mathcomp Require Import all_ssreflect all_algebra.
From Verif Require Import Outcome GwrModel GwrSpec GwrProofs GwrCases GwdrFitModel GwdrFitProofs NbMain NbLink LimCases.
Set Implicit Arguments. Unset Strict Implicit. Unset Printing Implicit Defensive.
Import Order.TTheory GRing.Theory Num.Theory.
Local Open Scope ring_scope.

Section D.
Variables (F : realFieldType) (n p : nat).
Lemma dims_neq0 (Ws : seq ('I_n -> 'cV[F]_n)) i j : (dims_weight Ws i j ord0 != 0) = all (fun W : 'I_n -> 'cV[F]_n => W i j ord0 != 0) Ws.
Proof.
rewrite dims_weightE; elim: Ws => [|W Ws IH]; first by rewrite big_nil oner_neq0.
by rewrite big_cons mulf_eq0 negb_or IH.
Qed.
Lemma dims_fit_neighbours (inv : 'M[F]_p -> option 'M[F]_p) storeS (x : 'M[F]_(n, p)) y (Ws : seq ('I_n -> 'cV[F]_n)) r :
  inverse_contract inv -> gwdr_fit inv storeS x y Ws (fun _ => false) = Ok (r, false) ->
  forall i, (p <= #|[set j | all (fun W : 'I_n -> 'cV[F]_n => W i j ord0 != 0%R) Ws]|)%N.
Proof.
move=> C E i; have := gwdr_is_gwr inv storeS x y Ws (fun _ => false); rewrite E.
case E': (fit_core _ _ _ _ _ _ _ _ _) => [[s b']| |] // [eb _ _ _ _]; rewrite -eb in E'.
have := fit_neighbours C E' (i := i) (ltn_ord i).
by congr (_ <= _)%N; apply: eq_card => j; rewrite !inE dims_neq0.
Qed.
Lemma dims_cv_neighbours (inv : 'M[F]_p -> option 'M[F]_p) (x : 'M[F]_(n, p)) y (Ws : seq ('I_n -> 'cV[F]_n)) t (i : 'I_n) :
  inverse_contract inv -> (#|[set j | (j != i) && all (fun W : 'I_n -> 'cV[F]_n => W i j ord0 != 0%R) Ws]| < p)%N ->
  gwdr_cv inv x y Ws (fun _ => false) t = None.
Proof.
move=> C H; rewrite gwdr_cv_is_cv; apply: (proj2 (cross_validation_main x y (dims_weight Ws) C) t i).
by move: H; congr (_ < _)%N; apply: eq_card => j; rewrite !inE dims_neq0.
Qed.
Lemma near_prod (k : nat) (d : F) (Ws : seq ('I_n -> 'cV[F]_n)) i j : 0 <= d <= 1 -> size Ws = k ->
  (forall W, List.In W Ws -> `|W i j ord0 - 1| <= d) -> `|\prod_(W <- Ws) W i j ord0 - 1| <= (2 ^ k - 1)%:R * d.
Proof.
move=> /andP [d0 d1]; elim: Ws k => [|W Ws IH] k <- P; first by rewrite big_nil subrr normr0 mul0r.
rewrite big_cons [size _]/=; set q := \prod_(_ <- _) _.
have Q : `|q - 1| <= (2 ^ size Ws - 1)%:R * d by apply: IH => // W' I; apply: P; right.
have w : `|W i j ord0 - 1| <= d by apply: P; left.
have -> : W i j ord0 * q - 1 = W i j ord0 * (q - 1) + (W i j ord0 - 1) by rewrite mulrBr mulr1 addrA subrK.
apply: le_trans (ler_norm_add _ _) _; rewrite normrM.
have w2 : `|W i j ord0| <= 2%:R.
  rewrite -[W i j ord0](subrK 1); apply: le_trans (ler_norm_add _ _) _.
  by rewrite normr1 -[2%:R]/(1 + 1 : F) ler_add2r (le_trans w).
have -> : (2 ^ (size Ws).+1 - 1)%:R * d = 2%:R * ((2 ^ size Ws - 1)%:R * d) + d.
  rewrite expnS mulrA -natrM -{3}[d]mul1r -mulrDl -[X in _ + X](mulr1n 1) -natrD; congr (_%:R * _).
  have : (0 < 2 ^ size Ws)%N by rewrite expn_gt0.
  by case: (2 ^ size Ws)%N => // K _; rewrite mulnS subn1 subn1 addn1.
apply: ler_add => //; exact: ler_pmul.
Qed.
Lemma dims_limit k storeS (x : 'M[F]_(n, p)) (y : 'cV[F]_n) (b : 'cV[F]_p) (e : F) :
  (forall v : 'cV[F]_p, x *m v = 0 -> v = 0) -> x^T *m (y - x *m b) = 0 -> 0 < e ->
  exists2 d, 0 < d & forall Ws : seq ('I_n -> 'cV[F]_n), size Ws = k ->
    (forall W i j, List.In W Ws -> `|W i j ord0 - 1| <= d) ->
    exists r, gwdr_fit (@exact_inv F p) storeS x y Ws (fun _ => false) = Ok (r, false) /\
      forall (i : 'I_n) a, `|r_betas r a i - b a ord0| <= e.
Proof.
move=> H B e0; have [d d0 L] := limit_full storeS false 0 n H B e0.
have K0 : 0 < (2 ^ k)%:R :> F by rewrite ltr0n expn_gt0.
exists (Num.min 1 (d / (2 ^ k)%:R)); first by rewrite lt_minr ltr01 divr_gt0.
move=> Ws sz P.
have m0 : 0 <= Num.min 1 (d / (2 ^ k)%:R) <= 1 by rewrite le_minr ler01 le_minl lexx ltW // divr_gt0.
have [|s [E S]] := L (dims_weight Ws).
  move=> i j; rewrite dims_weightE; apply: le_trans (near_prod m0 sz (fun W I => P W i j I)) _.
  apply: (@le_trans _ _ ((2 ^ k)%:R * (d / (2 ^ k)%:R))).
    apply: ler_pmul => //; [exact: ler0n|by case/andP: m0|by rewrite ler_nat leq_subr|by rewrite le_minl lexx orbT].
  by rewrite mulrCA divff ?mulr1 // lt0r_neq0.
have := gwdr_is_gwr (@exact_inv F p) storeS x y Ws (fun _ => false); rewrite E.
case E': (gwdr_fit _ _ _ _ _ _) => [[r b']| |] // [-> eb _ _ _].
by exists r; split=> // i a; rewrite eb; apply: S; rewrite ltn_ord.
Qed.
End D.
Lemma dims_neighbours_case :
  (exists r, gwdr_fit (@exact_inv _ 1) true ex_x ex_y [:: ex_W; ex_W] (fun _ => false) = Ok (r, false)) /\
  (#|[set j : 'I_1 | (j != ord0) && all (fun W : 'I_1 -> 'cV[rat]_1 => W ord0 j ord0 != 0%R) [:: fun _ => const_mx (1%R : rat)]]| < 1)%N.
Proof.
split; first exact: ex_gwdr.
by rewrite ltnS leqn0 cards_eq0; apply/eqP/setP => j; rewrite !inE ord1.
Qed.
