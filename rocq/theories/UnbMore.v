(** The price of weighting, and the regression with several dimensions. *)
From mathcomp Require Import all_ssreflect all_algebra ring.
From Verif Require Import Outcome GwrModel GwrSpec GwrProofs GwrCases GwdrFitModel GwdrFitProofs LimMain UnbSpec UnbMain.
Set Implicit Arguments. Unset Strict Implicit. Unset Printing Implicit Defensive.
Import Order.TTheory GRing.Theory Num.Theory.
Local Open Scope ring_scope.

Section P.
Variables (F : realFieldType) (n p : nat) (inv : 'M[F]_p -> option 'M[F]_p).
Hypothesis contract : inverse_contract inv.
Variables (x : 'M[F]_(n, p)) (y y1 : 'cV[F]_n) (W : 'I_n -> 'cV[F]_n).
Let One : 'I_n -> 'cV[F]_n := fun _ => const_mx 1.

Lemma price_row i i1 a : okat inv x W i -> okat inv x One i1 ->
  \sum_j cof inv x W i a j ^+ 2 = \sum_j cof inv x One i1 a j ^+ 2 + \sum_j (cof inv x W i a j - cof inv x One i1 a j) ^+ 2.
Proof.
move=> ok ok1.
have Z : \sum_j (cof inv x W i a j - cof inv x One i1 a j) * cof inv x One i1 a j = 0.
  have E j : cof inv x One i1 a j = \sum_d x j d * Bof inv x One i1 a d.
    rewrite {1}/cof /One xtw_ones mxE; apply: eq_bigr => d _; by rewrite [_^T _ _]mxE mulrC.
  rewrite (eq_bigr (fun j => \sum_d (cof inv x W i a j - cof inv x One i1 a j) * x j d * Bof inv x One i1 a d)); last first.
    by move=> j _; rewrite [X in _ * X]E mulr_sumr; apply: eq_bigr => d _; rewrite mulrA.
  rewrite exchange_big big1 //= => d _; rewrite -mulr_suml.
  have -> : \sum_j (cof inv x W i a j - cof inv x One i1 a j) * x j d = (cof inv x W i *m x) a d - (cof inv x One i1 *m x) a d.
    by rewrite [X in X - _]mxE [X in _ - X]mxE -sumrB; apply: eq_bigr => j _; rewrite mulrBl.
  by rewrite !(cof_x contract) // subrr mul0r.
have -> : \sum_j cof inv x W i a j ^+ 2 = \sum_j (cof inv x One i1 a j ^+ 2 + (cof inv x W i a j - cof inv x One i1 a j) ^+ 2 +
    2%:R * ((cof inv x W i a j - cof inv x One i1 a j) * cof inv x One i1 a j)).
  by apply: eq_bigr => j _; move: (cof inv x W i a j) (cof inv x One i1 a j) => c d; clear; ring.
by rewrite big_split big_split /= -mulr_sumr Z mulr0 addr0.
Qed.
Variables (storeS storeC storeS1 storeC1 : bool) (lo hi lo1 hi1 : nat) (s s1 : fitted_model F n p).
Hypothesis E : fit_core inv storeS storeC lo hi x y W (fun _ => false) = Ok (s, false).
Hypothesis E1 : fit_core inv storeS1 storeC1 lo1 hi1 x y1 (fun _ => const_mx 1) (fun _ => false) = Ok (s1, false).
Lemma price_main (i i1 : 'I_n) a : (lo <= i < hi)%N -> (lo1 <= i1 < hi1)%N ->
  se2 s1 a i1 <= se2 s a i /\ (y1 = y -> se2 s1 a i1 = se2 s a i -> betas s a i = betas s1 a i1).
Proof.
move=> ir ir1; have D := fit_core_desc E; have D1 := fit_core_desc E1.
have I : i \in range n lo hi by rewrite in_range.
have I1 : i1 \in range n lo1 hi1 by rewrite in_range.
have ok : okat inv x W i by apply: (allP (d_ok D)).
have ok1 : okat inv x One i1 by apply: (allP (d_ok D1)).
have S : se2 s a i = \sum_j cof inv x W i a j ^+ 2 by have /colP /(_ a) := d_se D I; rewrite [LHS]mxE [RHS]mxE.
have S1 : se2 s1 a i1 = \sum_j cof inv x One i1 a j ^+ 2 by have /colP /(_ a) := d_se D1 I1; rewrite [LHS]mxE [RHS]mxE.
rewrite S S1 (price_row a ok ok1); split.
  by rewrite ler_addl; apply: sumr_ge0 => j _; apply: sqr_ge0.
move=> ey /eqP; rewrite -subr_eq0 opprD addrA subrr add0r oppr_eq0 psumr_eq0; last by move=> j _; apply: sqr_ge0.
move=> /allP Z.
have C j : cof inv x W i a j = cof inv x One i1 a j.
  by have := Z j; rewrite mem_index_enum => /(_ isT); rewrite sqrf_eq0 subr_eq0 => /eqP.
have B : betas s a i = \sum_j cof inv x W i a j * y j ord0.
  by have /colP /(_ a) := d_betas D I; rewrite mulmxA -/(cof inv x W i) [LHS]mxE [RHS]mxE.
have B1 : betas s1 a i1 = \sum_j cof inv x One i1 a j * y1 j ord0.
  by have /colP /(_ a) := d_betas D1 I1; rewrite mulmxA -/(cof inv x One i1) [LHS]mxE [RHS]mxE.
by rewrite B B1 ey; apply: eq_bigr => j _; rewrite C.
Qed.
End P.

Section D.
Variables (F : realFieldType) (n p : nat) (inv : 'M[F]_p -> option 'M[F]_p).
Lemma dims_unbiased (storeS : bool) (x : 'M[F]_(n, p)) (Ws : seq ('I_n -> 'cV[F]_n)) (b : 'cV[F]_p)
    (T : finType) (P : T -> F) (e : T -> 'cV[F]_n) (v : F) (r : T -> gwdr_result F n p) (t0 : T) : inverse_contract inv -> uncorrelated P e v ->
  (forall t, gwdr_fit inv storeS x (x *m b + e t) Ws (fun _ => false) = Ok (r t, false)) ->
  (forall (i : 'I_n) a, expect P (fun t => r_betas (r t) a i) = b a ord0) /\
  (forall (i : 'I_n) a, expect P (fun t => (r_betas (r t) a i - b a ord0) ^+ 2) = (v * r_se (r t0) a i)%R) /\
  expect P (fun t => \sum_i ((x *m b + e t) i ord0 - \sum_a x i a * r_betas (r t) a i) ^+ 2) =
    (v * (n%:R - 2%:R * (r_shat (r t0)).1 + (r_shat (r t0)).2))%R.
Proof.
move=> c u H.
pose s t := match fit_core inv storeS false 0 n x (x *m b + e t) (dims_weight Ws) (fun _ => false) with Ok (s, _) => s | _ => fit0 F n p end.
have K t : fit_core inv storeS false 0 n x (x *m b + e t) (dims_weight Ws) (fun _ => false) = Ok (s t, false) /\
  [/\ r_betas (r t) = betas (s t), r_se (r t) = se2 (s t) & r_shat (r t) = (shat0 (s t), shat1 (s t))].
  have := gwdr_is_gwr inv storeS x (x *m b + e t) Ws (fun _ => false); rewrite H /s.
  by case: (fit_core _ _ _ _ _ _ _ _ _) => [[s' b']| |] // [<- -> -> -> _].
have Es t := (K t).1.
have B t : r_betas (r t) = betas (s t) by have [_ []] := K t.
split; last split.
- move=> i a; rewrite (expect_ext _ (g := fun t => betas (s t) a i)); last by move=> t; rewrite B.
  by apply: (mean_main c u Es); rewrite ltn_ord.
- move=> i a; rewrite (expect_ext _ (g := fun t => (betas (s t) a i - b a ord0) ^+ 2)); last by move=> t; rewrite B.
  by have [_ [_ -> _]] := K t0; apply: (error_main c u Es); rewrite ltn_ord.
- have [_ [_ _ ->]] := K t0; rewrite -(sigma_sum c u Es t0); apply: expect_ext => t; by rewrite B.
Qed.
End D.
Lemma price_case : exists s s1, fit_core (@exact_inv _ 1) true true 0 2 ex_x ex_y ex_W (fun _ => false) = Ok (s, false) /\
  fit_core (@exact_inv _ 1) true true 0 2 ex_x ex_y (fun _ => const_mx 1) (fun _ => false) = Ok (s1, false).
Proof.
have [s E] := ex_run true true 0 2 ex_y.
have [s1 E1] : exists s1, fit_core (@exact_inv _ 1) true true 0 2 ex_x ex_y (fun _ => const_mx 1) (fun _ => false) = Ok (s1, false).
  by apply: fit_total => i _; apply: ex_inv; rewrite !mxE.
by exists s, s1.
Qed.
Lemma dims_unb_case : exists r, forall t, gwdr_fit (@exact_inv _ 1) true ex_x (ex_x *m const_mx 1 + coin_e t) [:: ex_W; ex_W] (fun _ => false) = Ok (r t, false).
Proof.
have H t : exists r, gwdr_fit (@exact_inv _ 1) true ex_x (ex_x *m const_mx 1 + coin_e t) [:: ex_W; ex_W] (fun _ => false) = Ok (r, false).
  have D i j : dims_weight [:: ex_W; ex_W] i j ord0 = (if i == j then 1 else 2%:R^-1) * (if i == j then 1 else 2%:R^-1).
    by rewrite dims_weightE !big_cons big_nil !mxE mulr1.
  have [s E] : exists s, fit_core (@exact_inv _ 1) true false 0 2 ex_x (ex_x *m const_mx 1 + coin_e t) (dims_weight [:: ex_W; ex_W]) (fun _ => false) = Ok (s, false).
    apply: fit_total => i _. apply: ex_inv. rewrite !D !mxE. by case: i => [[|[|]]].
  have := gwdr_is_gwr (@exact_inv _ 1) true ex_x (ex_x *m const_mx 1 + coin_e t) [:: ex_W; ex_W] (fun _ => false). rewrite E.
  case: (gwdr_fit _ _ _ _ _ _) => [[r b]||] // [-> _ _ _ _]. by exists r.
have [r1 H1] := H (true, true); have [r2 H2] := H (true, false); have [r3 H3] := H (false, true); have [r4 H4] := H (false, false).
by exists (fun t => if t.1 then (if t.2 then r1 else r2) else (if t.2 then r3 else r4)) => [[[] []]].
Qed.
