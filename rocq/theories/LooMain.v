(** Leave-one-out residuals and the hat matrix. *)
From mathcomp Require Import all_ssreflect all_algebra ring.
From Verif Require Import Outcome GwrModel GwrSpec GwrProofs GwrCases LevMain LevCases.
Set Implicit Arguments. Unset Strict Implicit. Unset Printing Implicit Defensive.
Import Order.TTheory GRing.Theory Num.Theory.
Local Open Scope ring_scope.

Section L.
Variables (F : realFieldType) (n p : nat) (inv : 'M[F]_p -> option 'M[F]_p).
Hypothesis contract : inverse_contract inv.
Variables (x : 'M[F]_(n, p)) (y : 'cV[F]_n) (W : 'I_n -> 'cV[F]_n).

Lemma zero_sum i (f : 'I_n -> F) : \sum_j zero_at i (W i) j ord0 * f j = \sum_j W i j ord0 * f j - W i i ord0 * f i.
Proof.
rewrite (bigD1 i) //= [in RHS](bigD1 i) //= mxE eqxx mul0r add0r [X in X - _]addrC addrK.
by apply: eq_bigr => j /negbTE ne; rewrite mxE ne.
Qed.
Lemma loo_residual i (b g : 'cV[F]_p) : okat inv x W i -> (x *m b) i ord0 = (sof inv x W i *m y) ord0 ord0 -> solves x y (zero_at i (W i)) g ->
  y i ord0 - (x *m b) i ord0 = (1 - sof inv x W i ord0 i) * (y i ord0 - (x *m g) i ord0).
Proof.
move=> ok Eb Sg.
have O := solves_orth (cvec inv x W i) Sg.
have E : \sum_j sof inv x W i ord0 j * (y j ord0 - (x *m g) j ord0) = (x *m b) i ord0 - (x *m g) i ord0.
  rewrite Eb mxE -(reproduce contract g ok) -sumrB; apply: eq_bigr => j _; by rewrite mulrBr [X in _ - X * _](sof_u).
have E2 : \sum_j zero_at i (W i) j ord0 * ((y j ord0 - (x *m g) j ord0) * u inv x W i j) = 0.
  by rewrite -[RHS]O; apply: eq_bigr => j _; rewrite mulrA.
move: E2; rewrite zero_sum.
have -> : \sum_j W i j ord0 * ((y j ord0 - (x *m g) j ord0) * u inv x W i j) = (x *m b) i ord0 - (x *m g) i ord0.
  by rewrite -E; apply: eq_bigr => j _; rewrite sof_u mulrAC mulrA.
have -> : W i i ord0 * ((y i ord0 - (x *m g) i ord0) * u inv x W i i) = sof inv x W i ord0 i * (y i ord0 - (x *m g) i ord0).
  by rewrite sof_u mulrAC mulrA.
move: (sof inv x W i ord0 i) ((x *m b) i ord0) ((x *m g) i ord0) (y i ord0) => s f h t; clear.
move=> /eqP; rewrite subr_eq0 => /eqP; move=> E.
have -> : f = h + s * (t - h) by rewrite -E; ring.
by ring.
Qed.
Lemma sof_unit i : (forall j, 0 <= W i j ord0) -> okat inv x W i -> inv (xtw x (zero_at i (W i)) *m x) <> None -> 0 <= sof inv x W i ord0 i < 1.
Proof.
move=> w0 ok ok'.
set s := sof inv x W i ord0 i.
have Q : \sum_j W i j ord0 * u inv x W i j ^+ 2 = u inv x W i i.
  rewrite -[RHS](reproduce contract (cvec inv x W i) ok); apply: eq_bigr => j _; by rewrite expr2 mulrA.
have u0 : 0 <= u inv x W i i by rewrite -Q; apply: sumr_ge0 => j _; rewrite mulr_ge0 ?sqr_ge0.
have s0 : 0 <= s by rewrite /s sof_u mulr_ge0.
rewrite s0 /= lt_neqAle.
pose T := \sum_j zero_at i (W i) j ord0 * u inv x W i j ^+ 2.
have Z0 j : 0 <= zero_at i (W i) j ord0 by rewrite mxE; case: ifP.
have T0 : 0 <= T by apply: sumr_ge0 => j _; rewrite mulr_ge0 ?sqr_ge0.
have ET : T = u inv x W i i * (1 - s).
  by rewrite /T zero_sum Q /s sof_u; move: (u inv x W i i) (W i i ord0) => a c; clear; ring.
case: (eqVneq (u inv x W i i) 0) => [Z|N].
  have -> : s = 0 by rewrite /s sof_u Z mulr0.
  by rewrite eq_sym oner_eq0 ler01.
have up : 0 < u inv x W i i by rewrite lt_def N.
have s1 : s <= 1 by rewrite -subr_ge0 -(pmulr_rge0 _ up) -ET.
rewrite s1 andbT; apply/negP => /eqP S1.
have TZ : T = 0 by rewrite ET S1 subrr mulr0.
have C : (xtw x (zero_at i (W i)) *m x) *m cvec inv x W i = 0.
  apply/matrixP => a k; rewrite ord1 [RHS]mxE -mulmxA mxE big1 // => j _.
  rewrite [xtw _ _ _ _]mxE.
  have : zero_at i (W i) j ord0 * u inv x W i j ^+ 2 = 0.
    have /eqP := TZ; rewrite /T psumr_eq0; last by move=> k' _; rewrite mulr_ge0 ?sqr_ge0.
    by move/allP => /(_ j); rewrite mem_index_enum => /(_ isT) /eqP.
  move=> /eqP; rewrite mulf_eq0 sqrf_eq0 => /orP [/eqP ->|/eqP]; first by rewrite mulr0 mul0r.
  by rewrite /u => ->; rewrite mulr0.
move: ok'; case E: (inv _) => [B|] // _.
have c0 : cvec inv x W i = 0 by rewrite -[LHS]mul1mx -(contract E) -mulmxA C mulmx0.
by move: N; rewrite /u c0 mulmx0 mxE eqxx.
Qed.
End L.

Section Fit.
Variables (F : realFieldType) (n p : nat) (inv : 'M[F]_p -> option 'M[F]_p).
Hypothesis contract : inverse_contract inv.
Lemma cv_step_ok lo hi (x : 'M[F]_(n, p)) y (W : 'I_n -> 'cV[F]_n) b :
  cv_core inv lo hi x y W (fun _ => false) = Ok (b, false) -> forall i : 'I_n, (lo <= i < hi)%N ->
  inv (xtw x (zero_at i (W i)) *m x) <> None /\ solves x y (zero_at i (W i)) (col i b).
Proof.
move=> E i ir; have := cv_core_local E ir; rewrite /local; case I: (inv _) => [B|] // [Eb]; split=> //.
by rewrite /solves -Eb !mulmxA (left_is_right (contract I)) mul1mx.
Qed.
Lemma residual_main storeS storeC lo hi (x : 'M[F]_(n, p)) (y : 'cV[F]_n) (W : 'I_n -> 'cV[F]_n) s b (i : 'I_n) :
  fit_core inv storeS storeC lo hi x y W (fun _ => false) = Ok (s, false) ->
  cv_core inv lo hi x y W (fun _ => false) = Ok (b, false) -> (lo <= i < hi)%N ->
  y i ord0 - \sum_a x i a * betas s a i = (1 - sof inv x W i ord0 i) * (y i ord0 - \sum_a x i a * b a i).
Proof.
move=> E C ir; have D := fit_core_desc E; have [_ Sg] := cv_step_ok C ir.
have ok : okat inv x W i by apply: (allP (d_ok D)); rewrite in_range.
have Xb m (c : 'M[F]_(p, m)) k : (x *m col k c) i ord0 = \sum_a x i a * c a k.
  by rewrite mxE; apply: eq_bigr => a _; rewrite !mxE.
rewrite -!Xb; apply: (loo_residual contract ok _ Sg).
rewrite (d_betas D); last by rewrite in_range.
have := fitted_sof inv x y W i => /matrixP /(_ ord0 ord0) <-.
by rewrite -row_mul [RHS]mxE.
Qed.
Lemma stored_main storeC lo hi (x : 'M[F]_(n, p)) (y : 'cV[F]_n) (W : 'I_n -> 'cV[F]_n) s b (i : 'I_n) :
  fit_core inv true storeC lo hi x y W (fun _ => false) = Ok (s, false) ->
  cv_core inv lo hi x y W (fun _ => false) = Ok (b, false) -> (lo <= i < hi)%N ->
  y i ord0 - \sum_a x i a * betas s a i = (1 - rowS s (i - lo)%N ord0 i) * (y i ord0 - \sum_a x i a * b a i).
Proof.
move=> E C ir; rewrite (residual_main E C ir); have D := fit_core_desc E.
rewrite (d_S D isT) // ?in_range // => k; by rewrite in_range => /andP [].
Qed.
Lemma leverage_main storeC lo hi (x : 'M[F]_(n, p)) (y : 'cV[F]_n) (W : 'I_n -> 'cV[F]_n) s b (i : 'I_n) : (forall j, 0 <= W i j ord0) ->
  fit_core inv true storeC lo hi x y W (fun _ => false) = Ok (s, false) ->
  cv_core inv lo hi x y W (fun _ => false) = Ok (b, false) -> (lo <= i < hi)%N -> 0 <= rowS s (i - lo)%N ord0 i < 1.
Proof.
move=> w0 E C ir; have D := fit_core_desc E; have [ok' _] := cv_step_ok C ir.
rewrite (d_S D isT) ?in_range //; last by move=> k; rewrite in_range => /andP [].
by apply: (sof_unit contract) => //; apply: (allP (d_ok D)); rewrite in_range.
Qed.
Lemma cv_nostop (x : 'M[F]_(n, p)) y (W : 'I_n -> 'cV[F]_n) stop b st :
  cv_core inv 0 n x y W stop = Ok (b, st) -> ~~ st -> cv_core inv 0 n x y W (fun _ => false) = Ok (b, false).
Proof.
rewrite /cv_core => E /negbTE e; rewrite {}e in E; move: E; move: (range n 0 n) (0 : 'M[F]_(p, n)); elim=> [|k l IH] m //=.
by case: (stop k) => //; case: (cv_step _ _ _ _ _ _) => // m'; apply: IH.
Qed.
Lemma score_main storeC (x : 'M[F]_(n, p)) (y : 'cV[F]_n) (W : 'I_n -> 'cV[F]_n) s stop t v : (forall i j, 0 <= W i j ord0) ->
  fit_core inv true storeC 0 n x y W (fun _ => false) = Ok (s, false) -> criterion_cv inv x y W stop t = Some v ->
  (v = \sum_i ((y i ord0 - \sum_a x i a * betas s a i) / (1 - stored s i i)) ^+ 2) /\
  \sum_i (y i ord0 - \sum_a x i a * betas s a i) ^+ 2 <= v /\
  (v = \sum_i (y i ord0 - \sum_a x i a * betas s a i) ^+ 2 -> forall i, stored s i i = 0 \/ \sum_a x i a * betas s a i = y i ord0).
Proof.
move=> w0 E; rewrite /criterion_cv.
case C: (cv_core _ _ _ _ _ _ _) => [[b st]| |] //; case: ifP => // /negbT; rewrite negb_or => /andP [_ nst] [<-].
have {}C : cv_core inv 0 n x y W (fun _ => false) = Ok (b, false) by exact: (cv_nostop C nst).
have L i : 0 <= stored s i i < 1.
  have := leverage_main (w0 i) E C (i := i) (ltn_ord i); by rewrite subn0 [stored _ _ _]mxE.
have P i : 0 < 1 - stored s i i by rewrite subr_gt0; case/andP: (L i).
have R i : y i ord0 - \sum_a x i a * betas s a i = (1 - stored s i i) * (y i ord0 - \sum_a x i a * b a i).
  by rewrite (stored_main E C (i := i) (ltn_ord i)) subn0 [stored _ _ _]mxE.
have V : RSS x y b = \sum_i (y i ord0 - \sum_a x i a * b a i) ^+ 2.
  by rewrite /RSS; apply: eq_bigr => i _; rewrite [(y - _) _ _]mxE [(- Fitted x b) _ _]mxE [Fitted _ _ _ _]mxE.
have le i : (y i ord0 - \sum_a x i a * betas s a i) ^+ 2 <= (y i ord0 - \sum_a x i a * b a i) ^+ 2.
  rewrite R exprMn; apply: ler_pimull; first exact: sqr_ge0.
  apply: exprn_ile1; first exact: ltW.
  by rewrite ler_subl_addr ler_addl; case/andP: (L i).
rewrite V; split; last split.
- apply: eq_bigr => i _; congr (_ ^+ 2); rewrite R mulrC mulKf //; exact: lt0r_neq0.
- exact: ler_sum.
- move=> /eqP; rewrite -subr_eq0 -sumrB psumr_eq0; last by move=> i _; rewrite subr_ge0.
  move=> /allP H i; have := H i; rewrite mem_index_enum => /(_ isT); rewrite R exprMn.
  move: (y i ord0 - \sum_a x i a * b a i) (P i) (L i) (R i) => r Pi Li Ri.
  have -> : r ^+ 2 - (1 - stored s i i) ^+ 2 * r ^+ 2 = stored s i i * ((2%:R - stored s i i) * r ^+ 2).
    by move: (stored s i i) => c; clear; ring.
  rewrite !mulf_eq0 => /orP [/eqP ->|/orP [|]]; first by left.
    rewrite subr_eq0 => /eqP h; case/andP: Li => _; by rewrite -h ltNge ler1n.
  rewrite orbb => /eqP r0; right; apply/eqP; rewrite -subr_eq0 -oppr_eq0 opprB; by rewrite Ri r0 mulr0.
Qed.
End Fit.

Section Exact.
Variables (F : realFieldType) (n p : nat).
Let inv := @exact_inv F p.
Variables (x : 'M[F]_(n, p)) (y : 'cV[F]_n) (W : 'I_n -> 'cV[F]_n).
Lemma zero_normal i (v : 'cV[F]_p) : (xtw x (zero_at i (W i)) *m x) *m v = (xtw x (W i) *m x) *m v - (W i i ord0 * (x *m v) i ord0) *: (row i x)^T.
Proof.
apply/matrixP => a k; rewrite ord1 [RHS]mxE [X in _ + X]mxE [X in _ - X]mxE [X in _ - _ * X]mxE [X in _ - _ * X]mxE -!mulmxA [LHS]mxE [X in X - _]mxE.
have T (w : 'cV[F]_n) j : xtw x w a j = w j ord0 * x j a by rewrite !mxE mulrC.
rewrite (eq_bigr (fun j => zero_at i (W i) j ord0 * (x j a * (x *m v) j ord0))); last by move=> j _; rewrite T mulrA.
rewrite [X in _ = X - _](eq_bigr (fun j => W i j ord0 * (x j a * (x *m v) j ord0))); last by move=> j _; rewrite T mulrA.
by rewrite zero_sum mulrAC mulrA.
Qed.
Lemma exact_iff i : okat inv x W i -> (inv (xtw x (zero_at i (W i)) *m x) <> None <-> sof inv x W i ord0 i <> 1).
Proof.
move=> ok; have C := @exact_inv_contract F p.
have G : (xtw x (W i) *m x) *m cvec inv x W i = (row i x)^T.
  exact: (normal_c C ok).
split.
  move=> ok' s1; move: ok'; case E: (inv _) => [B|] // _.
  have Z : (xtw x (zero_at i (W i)) *m x) *m cvec inv x W i = 0.
    by rewrite zero_normal G -/(u inv x W i i) -sof_u s1 scale1r subrr.
  have c0 : cvec inv x W i = 0 by rewrite -[LHS]mul1mx -(C _ _ E) -mulmxA Z mulmx0.
  by have := oner_eq0 F; rewrite -s1 sof_u /u c0 mulmx0 mxE mulr0 eqxx.
move=> s1 N; apply: s1.
have S : (xtw x (zero_at i (W i)) *m x) \notin unitmx by move: N; rewrite /inv /exact_inv; case: ifP.
have [v v0 Z] : exists2 v : 'cV[F]_p, v != 0 & (xtw x (zero_at i (W i)) *m x) *m v = 0.
  have := S; rewrite -unitmx_tr -row_free_unit -kermx_eq0 => /rowV0Pn [r rk r0].
  exists r^T; first by rewrite trmx_eq0.
  by apply: trmx_inj; rewrite trmx_mul trmxK trmx0; apply/sub_kermxP.
have A : (xtw x (W i) *m x) *m v = (W i i ord0 * (x *m v) i ord0) *: (row i x)^T.
  by apply/eqP; rewrite -subr_eq0 -zero_normal Z.
have V : v = (W i i ord0 * (x *m v) i ord0) *: cvec inv x W i.
  move: ok; rewrite /okat; case I: (inv _) => [B|] // _.
  rewrite -[LHS]mul1mx -(C _ _ I) -mulmxA A -G -scalemxAr mulmxA (C _ _ I) mul1mx //.
have t0 : (x *m v) i ord0 != 0 by apply: contra v0 => /eqP t; rewrite V t mulr0 scale0r.
have : (x *m v) i ord0 = (W i i ord0 * (x *m v) i ord0) * u inv x W i i.
  by rewrite {1}V -scalemxAr mxE.
rewrite mulrAC -sof_u -{1}[(x *m v) i ord0]mul1r => /(mulIf t0) <- //.
Qed.
Lemma exact_main storeC lo hi s :
  fit_core inv true storeC lo hi x y W (fun _ => false) = Ok (s, false) ->
  (exists b, cv_core inv lo hi x y W (fun _ => false) = Ok (b, false)) <->
  (forall i : 'I_n, (lo <= i < hi)%N -> rowS s (i - lo)%N ord0 i <> 1).
Proof.
move=> E; have D := fit_core_desc E; have C := @exact_inv_contract F p.
have ok (i : 'I_n) : (lo <= i < hi)%N -> okat inv x W i by move=> ir; apply: (allP (d_ok D)); rewrite in_range.
have R (i : 'I_n) : (lo <= i < hi)%N -> rowS s (i - lo)%N = sof inv x W i.
  move=> ir; rewrite (d_S D isT) ?in_range // => k; by rewrite in_range => /andP [].
split.
  by move=> [b Eb] i ir; rewrite R //; apply/exact_iff; [exact: ok | have [] := cv_step_ok C Eb ir].
move=> H; have : forall i : 'I_n, i \in range n lo hi -> inv (xtw x (zero_at i (W i)) *m x) <> None.
  by move=> i; rewrite in_range => ir; apply/exact_iff; [exact: ok | rewrite -R //; exact: H].
rewrite /cv_core; move: (range n lo hi) (0 : 'M[F]_(p, n)); elim=> [|i t IH] s0 /= K; first by exists s0.
rewrite {1}/cv_step; case I: (inv _) => [B|]; last by case: (K i (mem_head _ _)).
by apply: IH => j jt; apply: K; rewrite inE jt orbT.
Qed.
End Exact.

(** Two observations, one of which weighs the other not at all. *)
Definition solo_W (i : 'I_2) : 'cV[rat]_2 := \col_j (if i == j then 1 else 0).
Lemma solo_run : exists s, fit_core (@exact_inv _ 1) true true 0 2 ex_x ex_y solo_W (fun _ => false) = Ok (s, false).
Proof. by apply: fit_total => i _; apply: ex_inv; rewrite !mxE; case: i => [[|[|]]]. Qed.
Lemma solo_lev s (i : 'I_2) : fit_core (@exact_inv _ 1) true true 0 2 ex_x ex_y solo_W (fun _ => false) = Ok (s, false) ->
  rowS s (i - 0)%N ord0 i = 1.
Proof.
move=> E;
case: (eqVneq (rowS s (i - 0)%N ord0 i) 1) => // /eqP ne.
have D := fit_core_desc E.
have ok : okat (@exact_inv _ 1) ex_x solo_W i by apply: (allP (d_ok D)); rewrite in_range ltn_ord.
have R : rowS s (i - 0)%N = sof (@exact_inv _ 1) ex_x solo_W i.
  rewrite (d_S D isT) ?in_range ?ltn_ord // => k; by rewrite in_range => /andP [].
rewrite R in ne; have /(exact_iff ok) := ne; case; rewrite /exact_inv.
suff -> : xtw ex_x (zero_at i (solo_W i)) *m ex_x = 0 by rewrite unitmxE det0 unitr0.
apply/matrixP => a k; rewrite mxE big1 ?mxE // => j _; rewrite !mxE [i == j]eq_sym; case: (j == i); by rewrite ?mulr0 ?mul0r.
Qed.
Lemma loo_case : exists s b v, fit_core (@exact_inv _ 1) true true 0 2 ex_x ex_y ex_W (fun _ => false) = Ok (s, false) /\
  cv_core (@exact_inv _ 1) 0 2 ex_x ex_y ex_W (fun _ => false) = Ok (b, false) /\
  criterion_cv (@exact_inv _ 1) ex_x ex_y ex_W (fun _ => false) false = Some v.
Proof.
have [s E] := ex_run true true 0 2 ex_y; have [b C] := ex_cv 0 2 ex_y.
by exists s, b, (RSS ex_x ex_y b); rewrite /criterion_cv C.
Qed.
Lemma solo_case : exists s, fit_core (@exact_inv _ 1) true true 0 2 ex_x ex_y solo_W (fun _ => false) = Ok (s, false) /\
  forall b, cv_core (@exact_inv _ 1) 0 2 ex_x ex_y solo_W (fun _ => false) <> Ok (b, false).
Proof.
have [s E] := solo_run; exists s; split=> // b Eb.
have [H _] := exact_main E; have := H (ex_intro _ b Eb) ord0 isT; apply; exact: solo_lev E.
Qed.
