(** Means and variances of what a fit reports when the data follow one linear model with uncorrelated errors. *)
From mathcomp Require Import all_ssreflect all_algebra ring.
From Verif Require Import Outcome GwrModel GwrSpec GwrProofs GwrCases UnbSpec.
Set Implicit Arguments. Unset Strict Implicit. Unset Printing Implicit Defensive.
Import Order.TTheory GRing.Theory Num.Theory.
Local Open Scope ring_scope.

Section E.
Variables (F : realFieldType) (T : finType) (n : nat) (P : T -> F) (e : T -> 'cV[F]_n) (v : F).
Hypothesis U : uncorrelated P e v.
Lemma expect_ext f g : (forall t, f t = g t) -> expect P f = expect P g.
Proof. by move=> H; apply: eq_bigr => t _; rewrite H. Qed.
Lemma expect_const c : expect P (fun _ => c) = c.
Proof. by have [_ S _ _] := U; rewrite /expect -mulr_suml S mul1r. Qed.
Lemma expect_add f g : expect P (fun t => f t + g t) = expect P f + expect P g.
Proof. by rewrite /expect -big_split; apply: eq_bigr => t _; rewrite mulrDr. Qed.
Lemma expect_scale c f : expect P (fun t => c * f t) = c * expect P f.
Proof. by rewrite /expect mulr_sumr; apply: eq_bigr => t _; rewrite mulrCA. Qed.
Lemma expect_sum (I : finType) (f : I -> T -> F) : expect P (fun t => \sum_i f i t) = \sum_i expect P (f i).
Proof. by rewrite /expect exchange_big; apply: eq_bigr => t _; rewrite mulr_sumr. Qed.
Lemma linear_mean (c : 'I_n -> F) : expect P (fun t => \sum_j c j * e t j ord0) = 0.
Proof.
have [_ _ M _] := U; rewrite expect_sum big1 // => j _; by rewrite expect_scale M mulr0.
Qed.
Lemma linear_var (c : 'I_n -> F) : expect P (fun t => (\sum_j c j * e t j ord0) ^+ 2) = v * \sum_j c j ^+ 2.
Proof.
have [_ _ _ C] := U.
rewrite (expect_ext (g := fun t => \sum_j \sum_k (c j * c k) * (e t j ord0 * e t k ord0))); last first.
  move=> t; rewrite expr2 mulr_suml; apply: eq_bigr => j _; rewrite mulr_sumr; apply: eq_bigr => k _.
  by move: (c j) (c k) (e t j ord0) (e t k ord0) => a b d f; clear; ring.
rewrite expect_sum mulr_sumr; apply: eq_bigr => j _; rewrite expect_sum (bigD1 j) //= big1 => [|k ne].
  by rewrite addr0 expect_scale C eqxx -expr2 mulrC.
by rewrite expect_scale C eq_sym (negbTE ne) mulr0.
Qed.
End E.

Section Fit.
Variables (F : realFieldType) (n p : nat) (inv : 'M[F]_p -> option 'M[F]_p).
Hypothesis contract : inverse_contract inv.
Variables (storeS storeC : bool) (lo hi : nat) (x : 'M[F]_(n, p)) (W : 'I_n -> 'cV[F]_n) (b : 'cV[F]_p).

Lemma cof_x i : okat inv x W i -> cof inv x W i *m x = 1%:M.
Proof. by move=> ok; rewrite /cof -mulmxA Bof_inv. Qed.
Lemma beta_err (e : 'cV[F]_n) s (i : 'I_n) a : fit_core inv storeS storeC lo hi x (x *m b + e) W (fun _ => false) = Ok (s, false) -> (lo <= i < hi)%N ->
  betas s a i = b a ord0 + \sum_j cof inv x W i a j * e j ord0.
Proof.
move=> E ir; have D := fit_core_desc E.
have I : i \in range n lo hi by rewrite in_range.
have ok : okat inv x W i by apply: (allP (d_ok D)).
have := d_betas D I; rewrite mulmxA -/(cof inv x W i) mulmxDr mulmxA cof_x // mul1mx => /colP /(_ a).
by rewrite [LHS]mxE [RHS]mxE [X in _ = _ + X]mxE.
Qed.
Lemma fit_err (e : 'cV[F]_n) s (i : 'I_n) : fit_core inv storeS storeC lo hi x (x *m b + e) W (fun _ => false) = Ok (s, false) -> (lo <= i < hi)%N ->
  (x *m b + e) i ord0 - \sum_a x i a * betas s a i = \sum_j ((i == j)%:R - sof inv x W i ord0 j) * e j ord0.
Proof.
move=> E ir.
have S j : sof inv x W i ord0 j = \sum_a x i a * cof inv x W i a j by rewrite mxE; apply: eq_bigr => a _; rewrite mxE.
rewrite (eq_bigr (fun a => x i a * b a ord0 + x i a * \sum_j cof inv x W i a j * e j ord0)); last first.
  by move=> a _; rewrite (beta_err a E ir) mulrDr.
rewrite big_split /= [X in X - _]mxE [(x *m b) _ _]mxE opprD addrACA subrr add0r.
rewrite [RHS](eq_bigr (fun j => (i == j)%:R * e j ord0 - sof inv x W i ord0 j * e j ord0)); last by move=> j _; rewrite mulrBl.
have K : \sum_j (i == j)%:R * e j ord0 = e i ord0.
  rewrite (bigD1 i) //= eqxx mul1r big1 ?addr0 // => j ne; by rewrite eq_sym (negbTE ne) mul0r.
rewrite sumrB K.
congr (_ - _); rewrite (eq_bigr (fun a => \sum_j x i a * cof inv x W i a j * e j ord0)); last first.
  by move=> a _; rewrite mulr_sumr; apply: eq_bigr => j _; rewrite mulrA.
by rewrite exchange_big; apply: eq_bigr => j _; rewrite S mulr_suml.
Qed.

Variables (T : finType) (P : T -> F) (e : T -> 'cV[F]_n) (v : F) (s : T -> fitted_model F n p).
Hypothesis U : uncorrelated P e v.
Hypothesis Es : forall t, fit_core inv storeS storeC lo hi x (x *m b + e t) W (fun _ => false) = Ok (s t, false).

Lemma mean_main (i : 'I_n) a : (lo <= i < hi)%N -> expect P (fun t => betas (s t) a i) = b a ord0.
Proof.
move=> ir; rewrite (expect_ext _ (g := fun t => b a ord0 + \sum_j cof inv x W i a j * e t j ord0)); last by move=> t; apply: beta_err.
by rewrite expect_add (expect_const U) (linear_mean U) addr0.
Qed.
Lemma error_main (i : 'I_n) a t0 : (lo <= i < hi)%N -> expect P (fun t => (betas (s t) a i - b a ord0) ^+ 2) = v * se2 (s t0) a i.
Proof.
move=> ir; rewrite (expect_ext _ (g := fun t => (\sum_j cof inv x W i a j * e t j ord0) ^+ 2)); last first.
  by move=> t; rewrite (beta_err a (Es t) ir) addrC addKr.
rewrite (linear_var U); congr (_ * _).
have D := fit_core_desc (Es t0); have I : i \in range n lo hi by rewrite in_range.
by have /colP /(_ a) := d_se D I; rewrite [LHS]mxE [RHS]mxE.
Qed.
Lemma residual_mean (i : 'I_n) : (lo <= i < hi)%N -> expect P (fun t => (x *m b + e t) i ord0 - \sum_a x i a * betas (s t) a i) = 0.
Proof.
move=> ir; rewrite (expect_ext _ (g := fun t => \sum_j ((i == j)%:R - sof inv x W i ord0 j) * e t j ord0)); last by move=> t; apply: fit_err.
exact: (linear_mean U).
Qed.
Lemma residual_var (i : 'I_n) : (lo <= i < hi)%N ->
  expect P (fun t => ((x *m b + e t) i ord0 - \sum_a x i a * betas (s t) a i) ^+ 2) = v * \sum_j ((i == j)%:R - sof inv x W i ord0 j) ^+ 2.
Proof.
move=> ir; rewrite (expect_ext _ (g := fun t => (\sum_j ((i == j)%:R - sof inv x W i ord0 j) * e t j ord0) ^+ 2)); last by move=> t; rewrite (fit_err (Es t)).
exact: (linear_var U).
Qed.
End Fit.

Section Full.
Variables (F : realFieldType) (n p : nat) (inv : 'M[F]_p -> option 'M[F]_p).
Hypothesis contract : inverse_contract inv.
Variables (storeS storeC : bool) (x : 'M[F]_(n, p)) (W : 'I_n -> 'cV[F]_n) (b : 'cV[F]_p).
Variables (T : finType) (P : T -> F) (e : T -> 'cV[F]_n) (v : F) (s : T -> fitted_model F n p).
Hypothesis U : uncorrelated P e v.
Hypothesis Es : forall t, fit_core inv storeS storeC 0 n x (x *m b + e t) W (fun _ => false) = Ok (s t, false).
Lemma sigma_main t0 : expect P (fun t => RSS x (x *m b + e t) (betas (s t))) = v * (n%:R - 2%:R * shat0 (s t0) + shat1 (s t0)).
Proof.
have D := fit_core_desc (Es t0).
have S0 : shat0 (s t0) = \sum_i sof inv x W i ord0 i by rewrite (d_sh0 D) /= add0r range_full big_enum.
have S1 : shat1 (s t0) = \sum_i \sum_j sof inv x W i ord0 j ^+ 2.
  rewrite (d_sh1 D) /= add0r range_full big_enum; apply: eq_bigr => i _; rewrite det_mx11 mxE.
  by apply: eq_bigr => j _; rewrite [_^T _ _]mxE expr2.
rewrite (expect_ext _ (g := fun t => \sum_i ((x *m b + e t) i ord0 - \sum_a x i a * betas (s t) a i) ^+ 2)); last first.
  by move=> t; apply: eq_bigr => i _; rewrite [(_ - Fitted _ _) _ _]mxE [(- Fitted _ _) _ _]mxE [Fitted _ _ _ _]mxE.
rewrite expect_sum (eq_bigr (fun i => v * (1 - 2%:R * sof inv x W i ord0 i + \sum_j sof inv x W i ord0 j ^+ 2))); last first.
  move=> i _; rewrite (residual_var contract U Es) ?ltn_ord //; congr (_ * _).
  rewrite (bigD1 i) //= [in RHS](bigD1 i) //= eqxx (eq_bigr (fun j => sof inv x W i ord0 j ^+ 2)); last first.
    by move=> j /negbTE ne; rewrite eq_sym ne sub0r sqrrN.
  by rewrite ?mulr1n; move: (sof inv x W i ord0 i) (\sum_(j | _) _) => c d; clear; ring.
by rewrite -mulr_sumr big_split /= sumrB -mulr_sumr -S0 -S1 sumr_const card_ord.
Qed.
Lemma q_col t0 i : qdiag (s t0) i ord0 = \sum_j ((i == j)%:R - sof inv x W j ord0 i) ^+ 2.
Proof.
have D := fit_core_desc (Es t0); rewrite (d_q D) /= add0r range_full big_enum summxE; apply: eq_bigr => j _.
by rewrite mxE [X in X ^+ 2 = _]mxE [X in (X + _) ^+ 2 = _]mxE [X in (- X + _) ^+ 2 = _]mxE [X in (_ + X) ^+ 2 = _]mxE addrC; case: (i == j).
Qed.
Lemma stud_main t0 i : storeS ->
  expect P (fun t => ((x *m b + e t) i ord0 - \sum_a x i a * betas (s t) a i) ^+ 2) = (v * \sum_j ((i == j)%:R - stored (s t0) i j) ^+ 2)%R /\
  qdiag (s t0) i ord0 = \sum_j ((i == j)%:R - stored (s t0) j i) ^+ 2.
Proof.
move=> st; have D := fit_core_desc (Es t0).
have R (k : 'I_n) j : stored (s t0) k j = sof inv x W k ord0 j.
  by rewrite [LHS]mxE -[nat_of_ord k]subn0 (d_S D st) // in_range ltn_ord.
split; first by rewrite (residual_var contract U Es) ?ltn_ord //; congr (_ * _); apply: eq_bigr => j _; rewrite R.
by rewrite q_col; apply: eq_bigr => j _; rewrite R.
Qed.
Lemma sigma_sum t0 : expect P (fun t => \sum_i ((x *m b + e t) i ord0 - \sum_a x i a * betas (s t) a i) ^+ 2) =
  v * (n%:R - 2%:R * shat0 (s t0) + shat1 (s t0)).
Proof.
rewrite -(sigma_main t0); apply: expect_ext => t; apply: eq_bigr => i _.
by rewrite [(_ - Fitted _ _) _ _]mxE [(- Fitted _ _) _ _]mxE [Fitted _ _ _ _]mxE.
Qed.
End Full.
Lemma residual_props (F : realFieldType) (n p : nat) (inv : 'M[F]_p -> option 'M[F]_p) (storeC : bool)
  (x : 'M[F]_(n, p)) (W : 'I_n -> 'cV[F]_n) (b : 'cV[F]_p) (T : finType) (P : T -> F) (e : T -> 'cV[F]_n) (v : F) (s : T -> fitted_model F n p) :
  inverse_contract inv -> uncorrelated P e v ->
  (forall t, fit_core inv true storeC 0 n x (x *m b + e t) W (fun _ => false) = Ok (s t, false)) -> forall (i : 'I_n) (t0 : T),
  [/\ expect P (fun t => (x *m b + e t) i ord0 - \sum_a x i a * betas (s t) a i) = 0,
      expect P (fun t => ((x *m b + e t) i ord0 - \sum_a x i a * betas (s t) a i) ^+ 2) = (v * \sum_j ((i == j)%:R - stored (s t0) i j) ^+ 2)%R,
      qdiag (s t0) i ord0 = (\sum_j ((i == j)%:R - stored (s t0) j i) ^+ 2)%R &
      (stored (s t0))^T = stored (s t0) ->
        expect P (fun t => ((x *m b + e t) i ord0 - \sum_a x i a * betas (s t) a i) ^+ 2) = (v * qdiag (s t0) i ord0)%R].
Proof.
move=> c u H i t0; have [R Q] := stud_main c u H t0 i isT; split=> //.
  by apply: (residual_mean c u H); rewrite ltn_ord.
move=> Y; rewrite R Q; congr (_ * _); apply: eq_bigr => j _; by rewrite -[in LHS]Y mxE.
Qed.

(** Two observations with errors of plus or minus one, independently. *)
Definition coin_e (t : bool * bool) : 'cV[rat]_2 := \col_j (if (if j == ord0 then t.1 else t.2) then 1 else -1).
Definition coin_P (t : bool * bool) : rat := 4%:R^-1.
Lemma coin_sum (f : bool * bool -> rat) : expect coin_P f = 4%:R^-1 * (f (true, true) + f (true, false) + (f (false, true) + f (false, false))).
Proof.
rewrite /expect /coin_P -mulr_sumr; congr (_ * _).
have -> : \sum_t f t = \sum_a \sum_c f (a, c) by rewrite pair_bigA; apply: eq_bigr => [[a c]] _.
by rewrite !big_bool.
Qed.
Lemma coin_uncorrelated : uncorrelated coin_P coin_e 1.
Proof.
split.
- by move=> t.
- have := coin_sum (fun _ => 1); rewrite /expect (eq_bigr coin_P) => [->|t _]; [by []|by rewrite mulr1].
- by move=> j; rewrite coin_sum !mxE /=; case: (j == ord0).
- move=> j k; rewrite coin_sum !mxE /=; by case: j => [[|[|j]] lj] //; case: k => [[|[|k]] lk].
Qed.
Lemma coin_fits (b : 'cV[rat]_1) : exists s, forall t, fit_core (@exact_inv _ _) true true 0 2 ex_x (ex_x *m b + coin_e t) ex_W (fun _ => false) = Ok (s t, false).
Proof.
pose g t := match fit_core (@exact_inv [realFieldType of rat] 1) true true 0 2 ex_x (ex_x *m b + coin_e t) ex_W (fun _ => false) with Ok (s, _) => s | _ => fit0 [realFieldType of rat] 2 1 end.
exists g => t; rewrite /g; by have [s ->] := ex_run true true 0 2 (ex_x *m b + coin_e t).
Qed.
Lemma ex_sof i j : sof (@exact_inv _ 1) ex_x ex_W i ord0 j =
  ex_x i ord0 * ex_x j ord0 * ex_W i j ord0 / (ex_x ord0 ord0 ^+ 2 * ex_W i ord0 ord0 + ex_x ord_max ord0 ^+ 2 * ex_W i ord_max ord0).
Proof.
rewrite /sof /cof /Bof; have := @ex_ok i; rewrite /exact_inv; case: ifP => // u _ /=.
have A : xtw ex_x (ex_W i) *m ex_x = (ex_x ord0 ord0 ^+ 2 * ex_W i ord0 ord0 + ex_x ord_max ord0 ^+ 2 * ex_W i ord_max ord0)%:M.
  apply/matrixP => a c; rewrite !ord1 [RHS]mxE eqxx mulr1n mxE !big_ord_recl big_ord0 addr0.
  rewrite (_ : lift ord0 ord0 = ord_max); last by apply: val_inj.
  have X k : xtw ex_x (ex_W i) ord0 k = ex_x k ord0 * ex_W i k ord0 by rewrite !mxE.
  by rewrite !X !expr2 ![_ * ex_W i _ _ * _]mulrAC.
rewrite A invmx_scalar mul_scalar_mx -scalemxAr [LHS]mxE; set d := _ + _.
have -> : (row i ex_x *m xtw ex_x (ex_W i)) ord0 j = ex_x i ord0 * (ex_x j ord0 * ex_W i j ord0).
  by rewrite mxE big_ord_recl big_ord0 addr0; congr (_ * _); rewrite !mxE.
by rewrite mulrC mulrA.
Qed.
Lemma stud_refuted : exists s : bool * bool -> fitted_model [realFieldType of rat] 2 1,
  (forall t, fit_core (@exact_inv _ _) true true 0 2 ex_x (ex_x *m const_mx 1 + coin_e t) ex_W (fun _ => false) = Ok (s t, false)) /\
  forall t0, expect coin_P (fun t => ((ex_x *m const_mx 1 + coin_e t) ord_max ord0 - \sum_a ex_x ord_max a * betas (s t) a ord_max) ^+ 2) = 5%:R / 81%:R /\
    qdiag (s t0) ord_max ord0 = 10%:R / 81%:R.
Proof.
have [s E] := coin_fits (const_mx 1); exists s; split=> // t0; split.
  rewrite (residual_var (@exact_inv_contract _ 1) coin_uncorrelated E) // mul1r !big_ord_recl big_ord0 !ex_sof !mxE /=; by apply/eqP.
rewrite (q_col E) !big_ord_recl big_ord0 !ex_sof !mxE /=; by apply/eqP.
Qed.
