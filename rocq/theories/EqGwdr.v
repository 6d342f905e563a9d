(** Responses and regressors changed in the regression with several dimensions. *)
From mathcomp Require Import all_ssreflect all_algebra.
From Verif Require Import Outcome GwrModel GwrSpec GwrProofs GwrCases GwdrFitModel GwdrFitProofs.
Set Implicit Arguments. Unset Strict Implicit. Unset Printing Implicit Defensive.
Import Order.TTheory GRing.Theory Num.Theory.
Local Open Scope ring_scope.

Section D.
Variables (F : realFieldType) (n p : nat) (inv : 'M[F]_p -> option 'M[F]_p).
Lemma to_gwr storeS (x : 'M[F]_(n, p)) y Ws r : gwdr_fit inv storeS x y Ws (fun _ => false) = Ok (r, false) ->
  exists s, [/\ fit_core inv storeS false 0 n x y (dims_weight Ws) (fun _ => false) = Ok (s, false), r_betas r = betas s,
    r_se r = se2 s, r_shat r = (shat0 s, shat1 s) & r_qdiag r = qdiag s].
Proof.
move=> E; have := gwdr_is_gwr inv storeS x y Ws (fun _ => false); rewrite E.
case E': (fit_core _ _ _ _ _ _ _ _ _) => [[s b']| |] // [eb H1 H2 H3 [H4 _]]; exists s; rewrite eb; split=> //; exact: E'.
Qed.
Lemma of_gwr storeS (x : 'M[F]_(n, p)) y Ws s : fit_core inv storeS false 0 n x y (dims_weight Ws) (fun _ => false) = Ok (s, false) ->
  exists r, [/\ gwdr_fit inv storeS x y Ws (fun _ => false) = Ok (r, false), r_betas r = betas s,
    r_se r = se2 s, r_shat r = (shat0 s, shat1 s) & r_qdiag r = qdiag s].
Proof.
move=> E; have := gwdr_is_gwr inv storeS x y Ws (fun _ => false); rewrite E.
case E': (gwdr_fit _ _ _ _ _ _) => [[r b']| |] // [eb H1 H2 H3 [H4 _]]; exists r; rewrite -eb; split=> //; exact: E'.
Qed.
Hypothesis contract : inverse_contract inv.
Lemma response_dims storeS (x : 'M[F]_(n, p)) y Ws r c (g : 'cV[F]_p) : gwdr_fit inv storeS x y Ws (fun _ => false) = Ok (r, false) ->
  exists r', [/\ gwdr_fit inv storeS x (c *: y + x *m g) Ws (fun _ => false) = Ok (r', false),
    forall i, col i (r_betas r') = c *: col i (r_betas r) + g, r_se r' = r_se r, r_shat r' = r_shat r & r_qdiag r' = r_qdiag r].
Proof.
move=> /to_gwr [s [E B S H Q]]; have [sg Eg] := okat_y (x *m g) E.
have [s' [E' B']] := C45_linear_main c 1 E Eg; rewrite scale1r in E'.
have [A1 A2 A3 A4 _] := C44_indep E E'; have [r' [E2 B2 S2 H2 Q2]] := of_gwr E'.
exists r'; split; rewrite ?S2 ?H2 ?Q2 ?S ?H ?Q ?A1 ?A2 ?A3 ?A4 // => i.
rewrite B2 B' B linearD !linearZ /= scale1r; congr (_ + _).
by apply: (C45_exact_main contract Eg); rewrite ltn_ord.
Qed.
Lemma regressors_dims storeS (x : 'M[F]_(n, p)) y Ws (A : 'M[F]_p) r r' : A \in unitmx ->
  gwdr_fit inv storeS x y Ws (fun _ => false) = Ok (r, false) ->
  gwdr_fit inv storeS (x *m A) y Ws (fun _ => false) = Ok (r', false) ->
  [/\ r_betas r' = invmx A *m r_betas r, forall i, (x *m A *m col i (r_betas r')) i ord0 = (x *m col i (r_betas r)) i ord0,
      r_shat r' = r_shat r & r_qdiag r' = r_qdiag r].
Proof.
move=> uA /to_gwr [s [E B S H Q]] /to_gwr [s' [E' B' S' H' Q']].
have [Hb [_ [H0 [H1 [Hq _]]]]] := C46_main contract uA E E'.
have Eb : r_betas r' = invmx A *m r_betas r by rewrite B' Hb B.
split; rewrite ?H' ?H ?Q' ?Q ?H0 ?H1 //.
by move=> i; rewrite Eb col_mul mulmxA -[x *m A *m _]mulmxA mulmxV // mulmx1.
Qed.
End D.

Lemma ex_double : (2%:R%:M : 'M[rat]_1) \in unitmx /\ exists r r',
  gwdr_fit (@exact_inv _ 1) true ex_x ex_y [:: ex_W; ex_W] (fun _ => false) = Ok (r, false) /\
  gwdr_fit (@exact_inv _ 1) true (ex_x *m 2%:R%:M) ex_y [:: ex_W; ex_W] (fun _ => false) = Ok (r', false).
Proof.
split; first exact: ex_two_unit.
have [r E] := ex_gwdr; have [s [Es _ _ _ _]] := to_gwr E; have D := fit_core_desc Es.
have [s' E'] : exists s', fit_core (@exact_inv _ 1) true false 0 2 (ex_x *m 2%:R%:M) ex_y (dims_weight [:: ex_W; ex_W]) (fun _ => false) = Ok (s', false).
  apply: fit_total => i _; have : okat (@exact_inv _ 1) ex_x (dims_weight [:: ex_W; ex_W]) i by apply: (allP (d_ok D)); rewrite in_range ltn_ord.
  rewrite /okat /exact_inv xtw_mul -mulmxA [xtw _ _ *m (_ *m _)]mulmxA !unitmx_mul unitmx_tr ex_two_unit andbT /=.
  by case: (_ \in unitmx).
have [r' [Er' _ _ _ _]] := of_gwr E'; by exists r, r'.
Qed.
