From mathcomp Require Import all_ssreflect all_algebra.
From Verif Require Import Outcome GwrModel GwrSpec GwrProofs GwrCases RobFitModel.
Set Implicit Arguments. Unset Strict Implicit. Unset Printing Implicit Defensive.
Import Order.TTheory GRing.Theory Num.Theory.
Local Open Scope ring_scope.

Section P.
Variables (F : realFieldType) (n p : nat) (inv : 'M[F]_p -> option 'M[F]_p).
Lemma zero_mask_main (x : 'M[F]_(n, p)) y W : inverse_contract inv -> (0 < n)%N -> (0 < p)%N ->
  robust_fit inv x y W 0 (fun _ => false) = Throw.
Proof.
move=> IC Ln Lp. rewrite /robust_fit /fit_core range_full.
have i0 : 'I_n := Ordinal Ln.
case Ee: (enum 'I_n) => [|i t].
  by have := mem_enum 'I_n i0; rewrite Ee in_nil inE.
rewrite /= /fit_step.
have Z : xtw x (\col_j (W i j ord0 * (0 : 'cV[F]_n) j ord0)) = 0.
  by apply/matrixP => a j; rewrite !mxE !mulr0.
rewrite Z mul0mx. case E: (inv 0) => [B|] //.
have := IC _ _ E. rewrite mulmx0 => /matrixP /(_ (Ordinal Lp) (Ordinal Lp)).
rewrite !mxE eqxx /= => /eqP. by rewrite eq_sym oner_eq0.
Qed.
Lemma masked_xtw (x x' : 'M[F]_(n, p)) m (z z' : 'M[F]_(n, m)) (w : 'cV[F]_n) :
  (forall j, w j ord0 != 0 -> row j x = row j x' /\ row j z = row j z') ->
  xtw x w *m z = xtw x' w *m z'.
Proof.
move=> H. apply/matrixP => a b. rewrite [LHS]mxE [RHS]mxE. apply: eq_bigr => j _. rewrite [xtw x w a j]mxE [xtw x' w a j]mxE.
case: (altP (w j ord0 =P 0)) => [->|nz]; first by rewrite !mulr0 !mul0r.
have [/rowP /(_ a) Hx /rowP /(_ b) Hz] := H j nz. move: Hx Hz. by rewrite !mxE => -> ->.
Qed.
Lemma no_influence_main (x x' : 'M[F]_(n, p)) (y y' : 'cV[F]_n) W (mask : 'cV[F]_n) s s' :
  (forall j, mask j ord0 != 0 -> row j x = row j x' /\ y j ord0 = y' j ord0) ->
  robust_fit inv x y W mask (fun _ => false) = Ok (s, false) ->
  robust_fit inv x' y' W mask (fun _ => false) = Ok (s', false) ->
  betas s = betas s'.
Proof.
move=> H E E'. apply/matrixP => a i.
suff /colP /(_ a) : col i (betas s) = col i (betas s') by rewrite !mxE.
rewrite (d_betas (fit_core_desc E)) ?range_full ?mem_enum //.
rewrite (d_betas (fit_core_desc E')) ?range_full ?mem_enum //.
set w := \col_j _.
have Hw j : w j ord0 != 0 -> row j x = row j x' /\ y j ord0 = y' j ord0.
  rewrite mxE => nz. apply: H. by apply: contraNneq nz => ->; rewrite mulr0.
have E1 : xtw x w *m x = xtw x' w *m x' by apply: masked_xtw => j /Hw [].
have E2 : xtw x w *m y = xtw x' w *m y'.
  apply: masked_xtw => j /Hw [A B]. split=> //. by apply/rowP => k; rewrite !mxE !ord1.
by rewrite /Bof E1 E2.
Qed.
End P.

(** Three observations, the third masked *)
Definition rx : 'M[rat]_(3, 1) := \matrix_(i, _) (i.+1)%:R.
Definition ry (v : rat) : 'cV[rat]_3 := \col_i (if i == ord_max then v else (i.+1)%:R).
Definition rmask : 'cV[rat]_3 := \col_i (if i == ord_max then 0 else 1).
Lemma ex_robust v : exists s, robust_fit (@exact_inv _ 1) rx (ry v) (fun _ => const_mx 1) rmask (fun _ => false) = Ok (s, false).
Proof.
rewrite /robust_fit. apply: fit_total => i _. apply: unit11.
rewrite mxE !big_ord_recl big_ord0 !mxE. by [].
Qed.
