(** Leave-one-out residuals of the regression with several dimensions. *)
From mathcomp Require Import all_ssreflect all_algebra.
From Verif Require Import Outcome GwrModel GwrSpec GwrProofs GwrCases GwdrFitModel GwdrFitProofs LevMain LooMain.
Set Implicit Arguments. Unset Strict Implicit. Unset Printing Implicit Defensive.
Import Order.TTheory GRing.Theory Num.Theory.
Local Open Scope ring_scope.

Section D.
Variables (F : realFieldType) (n p : nat).
Lemma prod_ge0 (Ws : seq ('I_n -> 'cV[F]_n)) i j : (forall W i j, List.In W Ws -> 0 <= W i j ord0) -> 0 <= dims_weight Ws i j ord0.
Proof.
rewrite dims_weightE; elim: Ws => [|W Ws IH] P; first by rewrite big_nil ler01.
rewrite big_cons mulr_ge0 //; first by apply: P; left.
by apply: IH => W' i' j' I; apply: P; right.
Qed.
Lemma dims_score (inv : 'M[F]_p -> option 'M[F]_p) (x : 'M[F]_(n, p)) y (Ws : seq ('I_n -> 'cV[F]_n)) r stop t v : inverse_contract inv ->
  (forall W i j, List.In W Ws -> 0 <= W i j ord0) ->
  gwdr_fit inv true x y Ws (fun _ => false) = Ok (r, false) -> gwdr_cv inv x y Ws stop t = Some v ->
  (forall i : 'I_n, 0 <= r_S r i ord0 i < 1) /\
  (v = \sum_i ((y i ord0 - \sum_a x i a * r_betas r a i) / (1 - r_S r i ord0 i)) ^+ 2) /\
  \sum_i (y i ord0 - \sum_a x i a * r_betas r a i) ^+ 2 <= v.
Proof.
move=> C P E; have := gwdr_is_gwr inv true x y Ws (fun _ => false); rewrite E.
case E': (fit_core _ _ _ _ _ _ _ _ _) => [[s b']| |] // [eb -> _ _ [_ ->]]; rewrite -eb in E'.
rewrite gwdr_cv_is_cv => V; have Q i j := prod_ge0 i j P.
have [V1 [V2 _]] := score_main C Q E' V.
split; last first.
  by split=> //; rewrite V1; apply: eq_bigr => i _; rewrite [stored _ _ _]mxE.
move=> i; move: V; rewrite /criterion_cv.
case G: (cv_core _ _ _ _ _ _ _) => [[b st]| |] //; case: ifP => // /negbT; rewrite negb_or => /andP [_ nst] _.
by have := leverage_main C (Q i) E' (cv_nostop G nst) (i := i) (ltn_ord i); rewrite subn0.
Qed.
Lemma dims_possible (x : 'M[F]_(n, p)) y (Ws : seq ('I_n -> 'cV[F]_n)) r :
  gwdr_fit (@exact_inv F p) true x y Ws (fun _ => false) = Ok (r, false) ->
  (exists v, gwdr_cv (@exact_inv F p) x y Ws (fun _ => false) false = Some v) <-> (forall i : 'I_n, r_S r i ord0 i <> 1).
Proof.
move=> E; have := gwdr_is_gwr (@exact_inv F p) true x y Ws (fun _ => false); rewrite E.
case E': (fit_core _ _ _ _ _ _ _ _ _) => [[s b']| |] // [eb _ _ _ [_ ->]]; rewrite -eb in E'.
have [H1 H2] := exact_main E'; split.
  move=> [v]; rewrite gwdr_cv_is_cv /criterion_cv.
  case G: (cv_core _ _ _ _ _ _ _) => [[b st]| |] //; case: ifP => // /negbT nst _ i.
  by have := H1 (ex_intro _ b (cv_nostop G nst)) i (ltn_ord i); rewrite subn0.
move=> H; have [|b G] := H2; first by move=> i _; rewrite subn0; exact: H.
by rewrite gwdr_cv_is_cv /criterion_cv G; eexists.
Qed.
Lemma prod_unit (Ws : seq ('I_n -> 'cV[F]_n)) i j : (forall W i j, List.In W Ws -> 0 <= W i j ord0 <= 1) -> 0 <= dims_weight Ws i j ord0 <= 1.
Proof.
move=> P; rewrite prod_ge0 /=; last by move=> W i' j' /(P W i' j') /andP [].
rewrite dims_weightE; elim: Ws P => [|W Ws IH] P; first by rewrite big_nil.
have /andP [w0 w1] := P W i j (or_introl erefl).
have Q W' i' j' : List.In W' Ws -> 0 <= W' i' j' ord0 <= 1 by move=> I; apply: P; right.
rewrite big_cons mulr_ile1 //; last exact: IH.
by have := @prod_ge0 Ws i j; rewrite dims_weightE; apply=> W' i' j' /(Q W' i' j') /andP [].
Qed.
Lemma prod_own (Ws : seq ('I_n -> 'cV[F]_n)) i : (forall W i, List.In W Ws -> W i i ord0 = 1) -> dims_weight Ws i i ord0 = 1.
Proof.
rewrite dims_weightE; elim: Ws => [|W Ws IH] P; first by rewrite big_nil.
rewrite big_cons P; last by left.
by rewrite mul1r; apply: IH => W' i' I; apply: P; right.
Qed.
Lemma dims_bounds (inv : 'M[F]_p -> option 'M[F]_p) storeS (x : 'M[F]_(n, p)) y (Ws : seq ('I_n -> 'cV[F]_n)) r : inverse_contract inv -> (0 < n)%N ->
  (forall W i j, List.In W Ws -> 0 <= W i j ord0 <= 1) -> (forall W i, List.In W Ws -> W i i ord0 = 1) ->
  gwdr_fit inv storeS x y Ws (fun _ => false) = Ok (r, false) ->
  [/\ p%:R <= (r_shat r).1, (r_shat r).1 <= 2%:R * (r_shat r).1 - (r_shat r).2, 2%:R * (r_shat r).1 - (r_shat r).2 <= n%:R &
      2%:R * (r_shat r).1 - (r_shat r).2 = n%:R -> forall i, \sum_a x i a * r_betas r a i = y i ord0].
Proof.
move=> C n0 P O E; have := gwdr_is_gwr inv storeS x y Ws (fun _ => false); rewrite E.
case E': (fit_core _ _ _ _ _ _ _ _ _) => [[s b']| |] // [eb -> _ -> _]; rewrite -eb in E'.
exact: (bounds_main C n0 (fun i j => prod_unit i j P) (fun i => prod_own i O) E').
Qed.
End D.
Lemma ex_unit W i j : List.In W [:: ex_W; ex_W] -> 0 <= W i j ord0 <= 1.
Proof. by move=> [<-|[<-|//]]; rewrite mxE; case: ifP. Qed.
Lemma ex_own W i : List.In W [:: ex_W; ex_W] -> W i i ord0 = 1.
Proof. by move=> [<-|[<-|//]]; rewrite mxE eqxx. Qed.
Lemma dims_case : exists r v, gwdr_fit (@exact_inv _ 1) true ex_x ex_y [:: ex_W; ex_W] (fun _ => false) = Ok (r, false) /\
  gwdr_cv (@exact_inv _ 1) ex_x ex_y [:: ex_W; ex_W] (fun _ => false) false = Some v.
Proof. by have [r E] := ex_gwdr; have [v V] := ex_gwdr_cv; exists r, v. Qed.
