From mathcomp Require Import all_ssreflect all_algebra ring.
From Verif Require Import Outcome GwrModel GwrSpec GwrProofs LevMain.
Set Implicit Arguments. Unset Strict Implicit. Unset Printing Implicit Defensive.
Import Order.TTheory GRing.Theory Num.Theory.
Local Open Scope ring_scope.

(** Constant model: local means *)
Section Mean.
Variables (F : realFieldType) (n : nat).
Definition one_x : 'M[F]_(n, 1) := const_mx 1.
Lemma one_normal w : xtw one_x w *m one_x = (\sum_j w j ord0)%:M.
Proof.
apply/matrixP => a b; rewrite !ord1 !mxE eqxx mulr1n; apply: eq_bigr => j _; by rewrite !mxE mul1r mulr1.
Qed.
Lemma means_main storeS storeC (y : 'cV[F]_n) (W : 'I_n -> 'cV[F]_n) : (forall i, \sum_j W i j ord0 != 0) ->
  exists s, [/\ fit_core (@exact_inv F 1) storeS storeC 0 n one_x y W (fun _ => false) = Ok (s, false),
    shat0 s = \sum_i W i i ord0 / \sum_j W i j ord0 &
    forall i, betas s ord0 i = (\sum_j W i j ord0 * y j ord0) / \sum_j W i j ord0].
Proof.
move=> H.
have U i : (xtw one_x (W i) *m one_x) \in unitmx by rewrite one_normal unitmxE det_scalar1 unitfE.
have [s E] : exists s, fit_core (@exact_inv F 1) storeS storeC 0 n one_x y W (fun _ => false) = Ok (s, false).
  by apply: fit_total => i _; rewrite /exact_inv U.
have B i : Bof (@exact_inv F 1) one_x W i = (\sum_j W i j ord0)^-1%:M.
  by rewrite /Bof /exact_inv U one_normal invmx_scalar.
have D := fit_core_desc E; exists s; split=> //.
- rewrite (d_sh0 D) /= add0r range_full big_enum; apply: eq_bigr => i _.
  by rewrite /sof /cof B mul_scalar_mx -scalemxAr !mxE big_ord1 !mxE mulrC mul1r mul1r.
- move=> i; have := d_betas D (i := i); rewrite in_range ltn_ord => /(_ isT) /colP /(_ ord0).
  rewrite B mul_scalar_mx [LHS]mxE => ->; rewrite mxE mxE mulrC; congr (_ / _); apply: eq_bigr => j _.
  by rewrite !mxE mul1r.
Qed.
End Mean.

(** Four points on a square: the two neighbours have weight t, the opposite corner has weight t^2. *)
Definition corner (F : realFieldType) (t : F) (i : 'I_4) : 'cV[F]_4 :=
  \col_j (if j == i then 1 else if (j + i)%N \in [:: 2%N; 4%N] then t ^+ 2 else t).
Lemma corner_sum (F : realFieldType) (t : F) i : \sum_j corner t i j ord0 = (1 + t) ^+ 2.
Proof.
rewrite !big_ord_recr big_ord0 /= !mxE /= add0r.
by case: i => [[|[|[|[|i]]]] Hi] //=; clear; rewrite /eq_op /=; ring.
Qed.
Lemma corner_own (F : realFieldType) (t : F) i : corner t i i ord0 = 1.
Proof. by rewrite mxE eqxx. Qed.
Lemma corner_nonzero : forall i, \sum_j corner (2%:R^-1 : rat) i j ord0 != 0.
Proof. by move=> i; rewrite corner_sum. Qed.
Lemma corner_case : [/\ forall i j, 0 <= corner (2%:R^-1 : rat) i j ord0 <= 1, forall i, corner (2%:R^-1 : rat) i i ord0 = 1 &
  exists s, fit_core (@exact_inv _ 1) true true 0 4 (one_x _ 4) (\col_j j%:R) (corner (2%:R^-1 : rat)) (fun _ => false) = Ok (s, false) /\
    shat0 s = 16%:R / 9%:R].
Proof.
split.
- by move=> i j; rewrite mxE; case: ifP => // _; case: ifP.
- exact: corner_own.
- have [s [E S _]] := means_main true true (\col_j j%:R) corner_nonzero.
  exists s; split=> //; rewrite S (eq_bigr (fun=> 4%:R / 9%:R)) ?sumr_const ?card_ord //.
  by move=> i _; rewrite corner_sum corner_own.
Qed.
Lemma uniform_case : exists s,
  fit_core (@exact_inv _ 1) true true 0 4 (one_x _ 4) (\col_j j%:R) (fun _ => const_mx (1 : rat)) (fun _ => false) = Ok (s, false).
Proof.
have H : forall i : 'I_4, \sum_j (const_mx (1 : rat) : 'cV_4) j ord0 != 0.
  by move=> i; rewrite (eq_bigr (fun=> 1)) ?sumr_const ?card_ord // => j _; rewrite mxE.
by have [s [E _ _]] := means_main true true (\col_j j%:R) H; exists s.
Qed.
