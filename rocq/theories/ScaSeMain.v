From mathcomp Require Import all_ssreflect all_algebra ring.
From Verif Require Import Outcome GwrModel GwrSpec GwrProofs GwrCases RidgeFitCases ScaModel ScaSpec ScaProofs ScaCases ScaSeModel ScaSeSpec ScaSeProofs.
Set Implicit Arguments. Unset Strict Implicit. Unset Printing Implicit Defensive.
Import Order.TTheory GRing.Theory Num.Theory.
Local Open Scope ring_scope.

Section W.
Variables (F : realFieldType) (n P : nat).
Variable gp : nat -> F -> F.

Lemma sum_squares (I : Type) (r : seq I) (Pr : pred I) (t : I -> F) : (forall i, 0 <= t i) ->
  \sum_(i <- r | Pr i) t i ^+ 2 <= (\sum_(i <- r | Pr i) t i) ^+ 2.
Proof.
move=> t0. elim: r => [|i r IH]; first by rewrite !big_nil expr0n.
rewrite !big_cons. case: (Pr i) => //. rewrite sqrrD -addrA ler_add2l.
apply: le_trans IH _. rewrite ler_addr mulrn_wge0 // mulr_ge0 //. by apply: sumr_ge0 => j _.
Qed.
Lemma nested_squares (nb : seq ('I_n * F)) j (b : F) : 0 < b -> (forall p g, 0 <= gp p g) ->
  (forall p g, 0 <= term (P := P) gp b p g) /\
  \sum_(q <- nb | q.1 == j) \sum_(p < P.+1) (term gp b p q.2) ^+ 2 <=
  (\sum_(q <- nb | q.1 == j) \sum_(p < P.+1) term gp b p q.2) ^+ 2.
Proof.
move=> b0 g0.
have t0 p g : 0 <= term (P := P) gp b p g.
  apply: mulr_ge0; first exact: share_nonneg. by case: (_ == _); rewrite ?ler01.
split=> //. apply: le_trans; last first.
  by apply: (@sum_squares _ nb (fun q => q.1 == j) (fun q => \sum_(p < P.+1) term gp b p q.2)) => q; apply: sumr_ge0 => p _.
apply: ler_sum => q _. exact: sum_squares.
Qed.
Lemma weightE (nb : seq ('I_n * F)) j (b a : F) : sca_weight P gp b a nb j ord0 = a + \sum_(q <- nb | q.1 == j) \sum_(p < P.+1) term gp b p q.2.
Proof. by rewrite mxE. Qed.

Lemma second_le (nb : seq ('I_n * F)) (b a : F) : 0 < b -> 0 <= a -> (forall p g, 0 <= gp p g) -> forall j,
  second_weight P gp b a nb j ord0 <= (sca_weight P gp b a nb j ord0) ^+ 2.
Proof.
move=> b0 a0 g0 j. rewrite weightE mxE sqrrD -[(a * _) *+ 2]mulr_natl mulrA ler_add2l.
exact: (proj2 (nested_squares nb j b0 g0)).
Qed.
Lemma second_lt (nb : seq ('I_n * F)) (b a : F) : (0 < P)%N -> 0 < b -> 0 <= a -> (forall p g, 0 < gp p g) -> forall j,
  j \in [seq q.1 | q <- nb] -> second_weight P gp b a nb j ord0 < (sca_weight P gp b a nb j ord0) ^+ 2.
Proof.
move=> P0 b0 a0 g0 j J. rewrite weightE mxE sqrrD -[(a * _) *+ 2]mulr_natl mulrA ltr_add2l.
have g0' p g : 0 <= gp p g by apply: ltW.
have [t0 _] := nested_squares nb j b0 g0'.
have tp p g : 0 < term (P := P) gp b p g.
  apply: mulr_gt0; last by case: (_ == _); rewrite ?ltr01 ?g0.
  by apply: divr_gt0; [rewrite exprn_gt0|exact: poly_sum_pos].
apply: (@lt_le_trans _ _ (\sum_(q <- nb | q.1 == j) (\sum_(p < P.+1) term gp b p q.2) ^+ 2)); last first.
  by apply: (@sum_squares _ nb (fun q => q.1 == j) (fun q => \sum_(p < P.+1) term gp b p q.2)) => q; apply: sumr_ge0 => p _.
have S q : \sum_(p < P.+1) term gp b p q ^+ 2 < (\sum_(p < P.+1) term gp b p q) ^+ 2.
  case: P P0 b0 t0 tp => // m _ b0' t0 tp. rewrite !big_ord_recl. set u := term gp b ord0 q. set v := term gp b _ q.
  set s := \sum_(i < m) term gp b _ q. set r := \sum_(i < m) _.
  have R : r <= s ^+ 2 by apply: sum_squares.
  have s0 : 0 <= s by apply: sumr_ge0.
  rewrite sqrrD -addrA ltr_add2l. apply: (@le_lt_trans _ _ ((v + s) ^+ 2)).
    rewrite sqrrD -addrA ler_add2l. apply: le_trans R _. rewrite ler_addr mulrn_wge0 //. apply: mulr_ge0 => //. exact: t0.
  rewrite ltr_addr mulrn_wgt0 //. apply: mulr_gt0; first exact: tp. apply: ltr_paddr => //. exact: tp.
move: J. rewrite -(mem_map (f := id)) // map_id. move=> {g0'}. elim: nb => [|q r IH] //=. rewrite !big_cons inE eq_sym.
have L : \sum_(i <- r | i.1 == j) \sum_(p < P.+1) term gp b p i.2 ^+ 2 <= \sum_(i <- r | i.1 == j) (\sum_(p < P.+1) term gp b p i.2) ^+ 2.
  by apply: ler_sum => i _; apply: ltW.
case: (q.1 =P j) => /= [_ _|_ J]; last exact: IH.
exact: ltr_le_add.
Qed.
Lemma second_eq (nb : seq ('I_n * F)) (b a : F) : P = 0%N -> uniq [seq q.1 | q <- nb] -> forall j,
  second_weight P gp b a nb j ord0 = (sca_weight P gp b a nb j ord0) ^+ 2.
Proof.
move=> P0 U j. rewrite weightE mxE sqrrD -[(a * _) *+ 2]mulr_natl mulrA. congr (_ + _). move: P0 => ->.
have H : forall r : seq ('I_n * F), j \notin [seq q.1 | q <- r] -> forall f : 'I_n * F -> F, \sum_(q <- r | q.1 == j) f q = 0.
  move=> r N f. rewrite big_seq_cond big1 // => q /andP [Q /eqP E]. case/negP: N. by rewrite -E map_f.
elim: nb U => [|q r IH] /=; first by rewrite !big_nil expr0n.
move=> /andP [N U]. rewrite !big_cons. case: (q.1 =P j) => [E|_]; last exact: IH.
rewrite E in N. by rewrite !(H r N) !addr0 !big_ord_recl !big_ord0 !addr0.
Qed.
End W.

Section U.
Variables (F : realFieldType) (n k P : nat).
Variable inv : 'M[F]_k -> option 'M[F]_k.
Variable gp : nat -> F -> F.
Hypothesis IU : inverts_units inv.

Lemma units_contract : inverse_contract inv.
Proof. move=> A B E. by have := IU A; rewrite E. Qed.
Lemma inv_scaled (c : F) (A : 'M[F]_k) : c != 0 -> inv (c *: A) = option_map (fun B => c^-1 *: B) (inv A).
Proof.
move=> c0. have := IU A. have := IU (c *: A).
case E1: (inv (c *: A)) => [B'|]; case E2: (inv A) => [B|] //= H1 H2.
- congr Some. have H3 : (c *: B') *m A = 1%:M by rewrite -scalemxAl scalemxAr.
  have H4 := mulmx1C H2. have : (c *: B') *m A *m B = B by rewrite H3 mul1mx.
  rewrite -mulmxA H4 mulmx1 => <-. by rewrite scalerA mulVf // scale1r.
- have [] := mulmx1_unit H1. by rewrite unitmxZ ?unitfE // (negbTE H2).
- have [_] := mulmx1_unit H2. move: H1. by rewrite unitmxZ ?unitfE // => /negbTE ->.
Qed.
Lemma cross_scaled (c : F) (x : 'M[F]_(n, k)) w : cross (c *: x) w = (c ^+ 2) *: cross x w.
Proof.
apply/matrixP => a d. rewrite !mxE mulr_sumr. apply: eq_bigr => j _. rewrite !mxE expr2.
by rewrite -!mulrA; congr (_ * _); rewrite [RHS]mulrCA; congr (_ * _); rewrite mulrCA.
Qed.
Lemma trZ m m' (c : F) (A : 'M[F]_(m, m')) : (c *: A)^T = c *: A^T.
Proof. by apply/matrixP => i j; rewrite !mxE. Qed.
Lemma inv_cross (c : F) (x : 'M[F]_(n, k)) w : c != 0 ->
  inv ((cross (c *: x) w)^T *m cross (c *: x) w) = option_map (fun B => (c ^+ 4)^-1 *: B) (inv ((cross x w)^T *m cross x w)).
Proof.
move=> c0. rewrite cross_scaled trZ -scalemxAl -scalemxAr scalerA -exprD. by rewrite inv_scaled // expf_neq0.
Qed.
Lemma xtw_scaled (c : F) (x : 'M[F]_(n, k)) w : xtw (c *: x) w = c *: xtw x w.
Proof. by apply/matrixP => a d; rewrite !mxE mulrA. Qed.

Lemma units_main (x : 'M[F]_(n, k)) (y : 'cV[F]_n) b a NB c : 0 < b -> c != 0 ->
  exists v : 'I_n -> 'cV[F]_k, forall sq, sq 0 = 0 -> exists r r',
  fit_serial P inv gp sq x y b a NB = Ok (Some r) /\ fit_serial P inv gp sq (c *: x) y b a NB = Ok (Some r') /\
  (forall i, row i (c *: x) *m s_betas r' i = row i x *m s_betas r i) /\
  s_trS r' = s_trS r / c ^+ 2 /\ s_trStS r' = s_trStS r / c ^+ 4 /\
  (forall i d, s_bse r i d ord0 = sq (v i d ord0) /\ s_bse r' i d ord0 = sq (v i d ord0 / c ^+ 6)).
Proof.
move=> b0 c0.
pose w i := sca_weight P gp b a (NB i). pose s2 i := second_weight P gp b a (NB i).
exists (fun i => match var_ inv x (w i) (s2 i) with Some V => \col_d V d d | None => 0 end) => sq sq0.
have [r [E [B1 [S1 [T1 U1]]]]] := serial_main P inv gp sq x y a NB b0.
have [r' [E' [B2 [S2 [T2 U2]]]]] := serial_main P inv gp sq (c *: x) y a NB b0.
have rowZ i : row i (c *: x) = c *: row i x by apply/rowP => j; rewrite !mxE.
exists r, r'. split=> //. split=> //. split; [|split; [|split]].
- move=> i. rewrite B1 B2 /bet inv_cross // -/(w i). case: (inv _) => [B|] /=; last by rewrite !mulmx0.
  rewrite cross_scaled xtw_scaled rowZ trZ !(=^~ scalemxAl, =^~ scalemxAr) !scalerA.
  rewrite (_ : _ * _ = 1) ?scale1r //. by field.
- rewrite T1 T2 mulr_suml. apply: eq_bigr => i _. rewrite /tr1_ inv_cross // -/(w i). case: (inv _) => [B|] /=; last by rewrite mul0r.
  rewrite rowZ trZ !(=^~ scalemxAl, =^~ scalemxAr) !scalerA [LHS]mxE [RHS]mulrC. congr (_ * _). by field.
- rewrite U1 U2 mulr_suml. apply: eq_bigr => i _. rewrite /tr2_ inv_cross // -/(w i) -/(s2 i). case: (inv _) => [B|] /=; last by rewrite mul0r.
  rewrite rowZ cross_scaled !trZ !(=^~ scalemxAl, =^~ scalemxAr) !scalerA [LHS]mxE [RHS]mulrC. congr (_ * _). by field.
- move=> i d. rewrite S1 S2 /var_ inv_cross // -/(w i) -/(s2 i). case: (inv _) => [B|] /=; last by rewrite !mxE mul0r sq0.
  have -> : (c ^+ 4)^-1 *: B *m cross (c *: x) (s2 i) *m ((c ^+ 4)^-1 *: B) = (c ^+ 6)^-1 *: (B *m cross x (s2 i) *m B).
    rewrite cross_scaled !(=^~ scalemxAl, =^~ scalemxAr) !scalerA. congr (_ *: _). by field.
  move: (B *m _ *m B) => V. by rewrite !mxE [_ / c ^+ 6]mulrC.
Qed.
End U.

(** Four observations, the constant regressor, all neighbours of each other with kernel value one. *)
Definition ones4 : 'M[rat]_(4, 1) := const_mx 1.
Definition all4 (i : 'I_4) : seq ('I_4 * rat) := [seq (j, 1) | j <- enum 'I_4].
Lemma all4_weight i j : sca_weight 0 gp1 1 0 (all4 i) j ord0 = 1 /\ second_weight 0 gp1 1 0 (all4 i) j ord0 = 1.
Proof.
have U : uniq [seq q.1 | q <- all4 i] by rewrite -map_comp map_id enum_uniq.
rewrite (second_eq gp1 1 0 (erefl : 0 = 0)%N U j).
suff -> : sca_weight 0 gp1 1 0 (all4 i) j ord0 = 1 by rewrite expr1n.
rewrite mxE add0r big_map big_enum_cond /= (big_pred1 j) //.
by rewrite big_ord_recl big_ord0 /= addr0 mulr1 /share big_ord_recl big_ord0 /= expr1n addr0 divr1.
Qed.
Lemma cross4 (w : 'cV[rat]_4) : (forall j, w j ord0 = 1) -> cross ones4 w = 4%:R%:M.
Proof.
move=> H. apply/matrixP => c d. rewrite !ord1 !mxE. under eq_bigr do rewrite H !mxE.
by rewrite sumr_const card_ord mulr1.
Qed.
Lemma inv4 : exact_inv ((4%:R%:M : 'M[rat]_1)^T *m 4%:R%:M) = Some ((16%:R)^-1)%:M.
Proof. apply: exact_inv_eq. rewrite tr_scalar_mx -!scalar_mxM. by congr (_%:M); apply/eqP; vm_compute. Qed.

Lemma rss_spec (F : realFieldType) n k (x : 'M[F]_(n, k)) y beta : sca_rss x y beta = residual_squares x y beta.
Proof.
rewrite /sca_rss /residual_squares. apply: eq_bigr => i _. rewrite expr2 mxE.
have -> : \sum_j row i x ord0 j * beta i j ord0 = \sum_c beta i c ord0 * x i c by apply: eq_bigr => c _; rewrite mxE mulrC.
by [].
Qed.
Lemma reported_main (sq : rat -> rat) (y : 'cV[rat]_4) : exists r,
  fit_serial 0 (@exact_inv _ 1) gp1 sq ones4 y 1 0 all4 = Ok (Some r) /\
  (forall i, s_betas r i ord0 ord0 = \sum_j 4%:R^-1 * y j ord0) /\
  (forall i, betas_se sq ones4 y r i ord0 ord0 = sq ((\sum_j (y j ord0 - \sum_l 4%:R^-1 * y l ord0) ^+ 2) / (4%:R - 2%:R * s_trS r + s_trStS r) * sq (64%:R)^-1)) /\
  s_trS r = 4%:R^-1.
Proof.
have [r [E [B1 [S1 [T1 _]]]]] := serial_main 0 (@exact_inv _ 1) gp1 sq ones4 y 0 all4 (ltr01 : 0 < 1).
have C i : cross ones4 (sca_weight 0 gp1 1 0 (all4 i)) = 4%:R%:M by apply: cross4 => j; case: (all4_weight i j).
have D i : cross ones4 (second_weight 0 gp1 1 0 (all4 i)) = 4%:R%:M by apply: cross4 => j; case: (all4_weight i j).
have BE i : s_betas r i ord0 ord0 = \sum_j 4%:R^-1 * y j ord0.
  rewrite B1 /bet C inv4 tr_scalar_mx !mul_scalar_mx !mxE mulrA mulr_sumr. apply: eq_bigr => j _.
  rewrite xtw_entry (proj1 (all4_weight i j)) mxE !mul1r. have -> : 16%:R^-1 * 4%:R = 4%:R^-1 :> rat by apply/eqP; vm_compute. by [].
exists r. split=> //. split; [exact: BE|split].
- move=> i. rewrite mxE /sigma_hat rss_spec (_ : residual_squares _ _ _ = \sum_j (y j ord0 - \sum_l 4%:R^-1 * y l ord0) ^+ 2); last first.
    apply: eq_bigr => j _. rewrite mxE big_ord_recl big_ord0 addr0 BE !mxE mul1r. by [].
  rewrite S1 /var_ C D inv4 -!scalar_mxM !mxE /= mulr1n. have -> : 16%:R^-1 * 4%:R / 16%:R = 64%:R^-1 :> rat by apply/eqP; vm_compute. by [].
- rewrite T1 (eq_bigr (fun=> 16%:R^-1)); first by rewrite sumr_const card_ord; apply/eqP; vm_compute.
  move=> i _. rewrite /tr1_ C inv4 mul_scalar_mx -scalemxAr !mxE big_ord_recl big_ord0 !mxE. by apply/eqP; vm_compute.
Qed.
Lemma exact_inverts (F : realFieldType) k : inverts_units (@exact_inv F k).
Proof. move=> A. rewrite /exact_inv. by case: ifPn => // U; exact: mulVmx. Qed.

Section T.
Variables (F : realFieldType) (n k P : nat) (inv : 'M[F]_k -> option 'M[F]_k) (gp : nat -> F -> F).
(** The coefficients and the first trace are those of ScaModel. *)
Lemma serial_sca sq (x : 'M[F]_(n, k)) (y : 'cV[F]_n) b a NB r : 0 < b -> fit_serial P inv gp sq x y b a NB = Ok (Some r) ->
  exists s, sca_fit P inv gp x y b a NB = Ok (Some s) /\ (forall i, s.1 i = s_betas r i) /\ s.2 = s_trS r.
Proof.
move=> b0 E. have [r' [E' [B [_ [T _]]]]] := serial_main P inv gp sq x y a NB b0. rewrite E in E'. case: E' => ->.
have [s [Es [H1 H2]]] := fit_main P inv gp x y a NB b0. exists s. split=> //. split.
  move=> i. by rewrite H1 B /bet cross_xtw.
rewrite H2 T. apply: eq_bigr => i _. by rewrite /tr1_ cross_xtw.
Qed.
Lemma trace_units (x : 'M[F]_(n, k)) (y : 'cV[F]_n) b a NB c : inverts_units inv -> 0 < b -> c != 0 -> exists r r',
  sca_fit P inv gp x y b a NB = Ok (Some r) /\ sca_fit P inv gp (c *: x) y b a NB = Ok (Some r') /\
  (forall i, row i (c *: x) *m r'.1 i = row i x *m r.1 i) /\ r'.2 = r.2 / c ^+ 2.
Proof.
move=> IU b0 c0. have [v H] := units_main P gp IU x y a NB b0 c0. have [r [r' [E [E' [B [T _]]]]]] := H (fun _ => 0) erefl.
have [s [Es [H1 H2]]] := serial_sca b0 E. have [s' [Es' [H1' H2']]] := serial_sca b0 E'.
exists s, s'. split=> //. split=> //. split; first by move=> i; rewrite H1 H1'. by rewrite H2 H2'.
Qed.
Lemma computed_main sq (x : 'M[F]_(n, k)) (y : 'cV[F]_n) b a NB : 0 < b -> exists r,
  fit_serial P inv gp sq x y b a NB = Ok (Some r) /\
  (forall i B, let M := cross x (sca_weight P gp b a (NB i)) in inv (M^T *m M) = Some B ->
     forall d, s_bse r i d ord0 = sq ((B *m cross x (second_weight P gp b a (NB i)) *m B) d d)) /\
  (forall B, (forall i, let M := cross x (sca_weight P gp b a (NB i)) in inv (M^T *m M) = Some (B i)) ->
     s_trS r = \sum_i (row i x *m B i *m (row i x)^T) ord0 ord0 /\
     s_trStS r = \sum_i (row i x *m (B i)^T *m cross x (second_weight P gp b a (NB i)) *m B i *m (row i x)^T) ord0 ord0) /\
  (forall i d, betas_se sq x y r i d ord0 =
     sq (residual_squares x y (s_betas r) / (n%:R - 2%:R * s_trS r + s_trStS r) * s_bse r i d ord0)).
Proof.
move=> b0. have [r [E [_ [S [T U]]]]] := serial_main P inv gp sq x y a NB b0. exists r. split=> //. split.
  move=> i B M EB d. by rewrite S /var_ EB mxE.
split; last first.
  move=> i d. by rewrite mxE /sigma_hat rss_spec.
move=> B H. rewrite T U. split; apply: eq_bigr => i _; have EB := H i; cbv zeta in EB; rewrite ?/tr1_ ?/tr2_ EB.
  by rewrite mulmxA.
by rewrite !mulmxA.
Qed.
End T.
