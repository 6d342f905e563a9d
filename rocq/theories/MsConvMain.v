From mathcomp Require Import all_ssreflect all_algebra ring.
From Verif Require Import Outcome GwrModel GwrSpec GwrProofs MsModel MsSpec MsProofs MsCases MsTrace MsConvSpec.
Set Implicit Arguments. Unset Strict Implicit. Unset Printing Implicit Defensive.
Import Order.TTheory GRing.Theory Num.Theory.
Local Open Scope ring_scope.

Section P.
Variables (F : realFieldType) (n p : nat).
Variable inv : 'M[F]_1 -> option 'M[F]_1.
Hypothesis cn : inverse_contract inv.
Lemma core_smoother (x y : 'cV[F]_n) W (b : 'cV[F]_n) S : fit_var_core inv x y W (fun _ => false) = Ok (b, S) ->
  \col_j (x j ord0 * b j ord0) = smoother x W *m y.
Proof.
move=> E; apply/colP => j; have [B EB Eb] := core_local E j.
have := cn EB => /matrixP /(_ ord0 ord0); rewrite !mxE big_ord1 !mxE eqxx => HB.
rewrite Eb !mxE big_ord1 !mxE.
have ED : \sum_k xtw x (W j) ord0 k * x k ord0 = \sum_l W j l ord0 * x l ord0 ^+ 2.
  by apply: eq_bigr => k _; rewrite mxE expr2 mulrA [W _ _ _ * _]mulrC.
rewrite ED in HB.
set D := \sum_l _ in HB *.
have EBi : B ord0 ord0 = D^-1.
  have D0 : D != 0 by apply: contra_eq_neq HB => ->; rewrite mulr0 eq_sym oner_neq0.
  by apply: (mulIf D0); rewrite HB mulVf.
rewrite EBi mulrA mulr_sumr; apply: eq_bigr => k _; rewrite !mxE -/D.
by move: (D^-1) => d; gring.
Qed.
Variables (hat : bool) (x : 'M[F]_(n, p)) (y : 'cV[F]_n).
Variable wt : 'I_p -> F -> 'I_n -> 'cV[F]_n.
Variable select : nat -> 'I_p -> 'cV[F]_n -> 'cV[F]_n -> F -> outcome F.
Variables (threshold : 'I_p -> F) (retry : nat).
Local Notation Never2 := (fun _ _ => false).
Local Notation Never3 := (fun _ _ _ => false).
Local Notation Var_pass := (var_pass inv hat x y wt select threshold retry Never2 Never2 Never3).
Local Notation Sweep := (sweep inv hat x y wt select threshold retry Never2 Never2 Never3).
Lemma pass_share it i st st' c : fresh x y st -> Var_pass it i st = Ok (st', c) ->
  share x (mbetas st') i = smoother (col i x) (wt i (mbw st' i)) *m partial_residual x (mbetas st) y i.
Proof.
move=> Hr; rewrite /var_pass.
case E: (select_var _ _ _ _ _ _ _ _) => [st1| |] //.
rewrite /fit_var Hr resid_part.
case Ec: (fit_var_core _ _ _ _ _) => [[b S]| |] // [<- _] /=.
rewrite -(core_smoother (b := b) (S := S) Ec); apply/colP => j.
by rewrite !mxE eqxx.
Qed.
Lemma sweep_share it (vars : seq 'I_p) : forall st st', uniq vars -> fresh x y st -> Sweep it vars st = Ok st' ->
  forall i, i \in vars ->
  share x (mbetas st') i = smoother (col i x) (wt i (mbw st' i)) *m
    partial_residual x (mixed (fun k => index k vars < index i vars)%N (mbetas st') (mbetas st)) y i.
Proof.
elim: vars => [|i t IH] st st' //= /andP[Ni Ut] Hf.
case E: (var_pass _ _ _ _ _ _ _ _ _ _ _ _ _ _) => [[st1 c]| |] //.
have [Ec _ SA] := pass_books (fun _ _ => conj erefl erefl) E; rewrite Ec in E * => Et k; rewrite inE.
have Hc := cols_sweep Et; have Hp := cols_pass E.
have Hs : forall k, k \notin t -> share x (mbetas st') k = share x (mbetas st1) k.
  by move=> k' /Hc [H _]; apply/colP => j; rewrite !mxE H.
case: (eqVneq k i) => [-> _|N /= Hk].
  have -> : mixed (fun k0 => (if i == k0 then 0 else (index k0 t).+1) < 0)%N (mbetas st') (mbetas st) = mbetas st.
    by apply/matrixP => a b; rewrite mxE ltn0.
  rewrite (Hs i Ni) (proj2 (Hc i Ni)); exact: (pass_share Hf E).
have Hf1 := fresh_pass Hf E.
have := IH st1 st' Ut Hf1 Et k Hk.
have -> // : mixed (fun k0 => index k0 t < index k t)%N (mbetas st') (mbetas st1) =
  mixed (fun k0 => (if i == k0 then 0 else (index k0 t).+1) < (index k t).+1)%N (mbetas st') (mbetas st).
apply/matrixP => a b; rewrite !mxE.
case: (eqVneq i b) => [<-|Nb] /=.
  by rewrite -(proj1 (Hc i Ni)); case: (_ < _)%N.
by rewrite ltnS; case: (_ < _)%N => //; rewrite (proj1 (Hp b _)) // eq_sym.
Qed.
Variables (s : fitted_model F n p) (bw : 'I_p -> F) (init : 'I_p -> init_type) (sts : nat -> ms F n p) (K : nat).
Hypothesis H0 : sts 0%N = ms_start x y s bw init.
Hypothesis HS : forall j, (j < K)%N -> Sweep j.+1 (enum 'I_p) (sts j) = Ok (sts j.+1).
Lemma trace_fresh j : (j <= K)%N -> fresh x y (sts j).
Proof.
elim: j => [|j IHj] Lj; first by rewrite H0.
apply: (@keep_sweep _ _ _ inv hat x y wt select threshold retry Never2 Never2 Never3
          (fresh x y) _ _ j.+1 (enum 'I_p) (sts j) (sts j.+1) (IHj (ltnW Lj)) (HS Lj)).
- by move=> it' i' yi' s1 s2 A B; apply: (fresh_select A B).
- by move=> it' i' s0 s1 s2 A B C D; apply: (fresh_fit A B C D).
Qed.
Lemma recursion_main i j : (j < K)%N ->
  share x (mbetas (sts j.+1)) i = smoother (col i x) (wt i (mbw (sts j.+1) i)) *m
    (y - \sum_(k : 'I_p | (k < i)%N) share x (mbetas (sts j.+1)) k - \sum_(k : 'I_p | (i < k)%N) share x (mbetas (sts j)) k).
Proof.
move=> Lj; rewrite (sweep_share (enum_uniq _) (trace_fresh (ltnW Lj)) (HS Lj) (mem_enum 'I_p i)).
congr (_ *m _); apply/colP => a; rewrite !mxE !summxE -addrA -opprD; congr (_ - _).
rewrite (bigID (fun k : 'I_p => (k < i)%N)) /=; congr (_ + _).
  apply: eq_big => [k|k /andP[_ Lk]]; last by rewrite !mxE !index_enum_ord Lk.
  by case: ltngtP => //; rewrite ?andbF ?andbT // => L; apply/eqP => E; rewrite E ltnn in L.
apply: eq_big => [k|k /andP[_ Lk]]; last by rewrite !mxE !index_enum_ord (negbTE Lk).
rewrite -leqNgt [RHS]ltn_neqAle eq_sym; congr (_ && _).
Qed.
Lemma bw_spec i j : init i = ISpecified -> (j <= K)%N -> mbw (sts j) i = bw i /\ is_specified (minit (sts j) i).
Proof.
move=> Hi; elim: j => [|j IHj] Lj; first by rewrite H0 /= Hi.
have [E1 E2] := IHj (ltnW Lj).
have [SB _] := sweep_books (fun _ _ => conj erefl erefl) (enum_uniq _) (HS Lj).
by have := SB i (mem_enum _ _); rewrite /settled E2 E1.
Qed.
Lemma recursion_spec i j : init i = ISpecified -> (j < K)%N ->
  share x (mbetas (sts j.+1)) i = smoother (col i x) (wt i (bw i)) *m
    (y - \sum_(k : 'I_p | (k < i)%N) share x (mbetas (sts j.+1)) k - \sum_(k : 'I_p | (i < k)%N) share x (mbetas (sts j)) k).
Proof. by move=> Hi Lj; rewrite -(proj1 (bw_spec Hi Lj)); apply: recursion_main. Qed.
End P.

(** ** Two variables *)
Section Two.
Variables (F : realFieldType) (n : nat).
Lemma two_before (f : 'I_2 -> 'cV[F]_n) : \sum_(k : 'I_2 | (k < (ord0 : 'I_2))%N) f k = 0 /\ \sum_(k : 'I_2 | (k < (ord_max : 'I_2))%N) f k = f ord0.
Proof.
split; rewrite big_mkcond big_ord_recl big_ord1 /= ?addr0 //.
Qed.
Lemma two_after (f : 'I_2 -> 'cV[F]_n) : \sum_(k : 'I_2 | ((ord0 : 'I_2) < k)%N) f k = f ord_max /\ \sum_(k : 'I_2 | ((ord_max : 'I_2) < k)%N) f k = 0.
Proof.
split; rewrite big_mkcond big_ord_recl big_ord1 /= ?add0r ?addr0 //.
by congr f; apply: val_inj.
Qed.
Lemma error_step (S1 S2 : 'M[F]_n) y f1 f2 g g1 g2 : additive_solution S1 S2 y f1 f2 ->
  g1 = S1 *m (y - g) -> g2 = S2 *m (y - g1) -> g2 - f2 = S2 *m S1 *m (g - f2).
Proof.
move=> [A B] C D; rewrite D {1}B -mulmxBr -mulmxA; congr (_ *m _).
have -> : y - g1 - (y - f1) = f1 - g1 by apply/colP => j; rewrite !mxE; gring.
rewrite C {1}A -mulmxBr; congr (_ *m _).
by apply/colP => j; rewrite !mxE; gring.
Qed.
End Two.

Section Runs2.
Variables (F : realFieldType) (n : nat) (inv : 'M[F]_1 -> option 'M[F]_1) (hat : bool) (x : 'M[F]_(n, 2)) (y : 'cV[F]_n).
Variables (s : fitted_model F n 2) (bw : 'I_2 -> F) (wt : 'I_2 -> F -> 'I_n -> 'cV[F]_n).
Variables (select : nat -> 'I_2 -> 'cV[F]_n -> 'cV[F]_n -> F -> outcome F) (threshold : 'I_2 -> F) (retry : nat).
Variables (sts : nat -> ms F n 2) (K : nat).
Hypothesis cn : inverse_contract inv.
Hypothesis H0 : sts 0%N = ms_start x y s bw (fun _ => ISpecified).
Hypothesis HS : forall j, (j < K)%N -> sweep inv hat x y wt select threshold retry (fun _ _ => false) (fun _ _ => false) (fun _ _ _ => false)
  j.+1 (enum 'I_2) (sts j) = Ok (sts j.+1).
Local Notation f i j := (share x (mbetas (sts j)) i).
Local Notation Sm i := (smoother (col i x) (wt i (bw i))).
Lemma two_step j : (j < K)%N ->
  f ord0 j.+1 = Sm ord0 *m (y - f ord_max j) /\ f ord_max j.+1 = Sm ord_max *m (y - f ord0 j.+1).
Proof.
move=> Lj; have H i := recursion_spec cn H0 HS (i := i) erefl Lj.
split; rewrite [LHS]H; congr (_ *m _).
  by rewrite (proj1 (two_before _)) (proj1 (two_after _)) subr0.
by rewrite (proj2 (two_before _)) (proj2 (two_after _)) subr0.
Qed.
Lemma converges_main (N : 'cV[F]_n -> F) (q : F) f1 f2 : 0 <= q ->
  (forall v, N (Sm ord_max *m Sm ord0 *m v) <= q * N v) ->
  additive_solution (Sm ord0) (Sm ord_max) y f1 f2 ->
  forall j, (j <= K)%N -> N (f ord_max j - f2) <= q ^+ j * N (f ord_max 0%N - f2).
Proof.
move=> q0 HN Hf; elim=> [|j IH] Lj; first by rewrite expr0 mul1r.
have [A B] := two_step Lj.
rewrite (error_step Hf A B); apply: le_trans (HN _) _.
by rewrite exprS -mulrA; apply: ler_wpmul2l => //; apply: IH; apply: ltnW.
Qed.
End Runs2.
Lemma one_variable_main (F : realFieldType) n (inv : 'M[F]_1 -> option 'M[F]_1) hat (x : 'M[F]_(n, 1)) y s bw init wt select threshold retry
    (sts : nat -> ms F n 1) K : inverse_contract inv -> init ord0 = ISpecified ->
  sts 0%N = ms_start x y s bw init ->
  (forall j, (j < K)%N -> sweep inv hat x y wt select threshold retry (fun _ _ => false) (fun _ _ => false) (fun _ _ _ => false)
     j.+1 (enum 'I_1) (sts j) = Ok (sts j.+1)) ->
  forall j, (0 < j <= K)%N -> share x (mbetas (sts j)) ord0 = smoother (col ord0 x) (wt ord0 (bw ord0)) *m y.
Proof.
move=> cn Hi H0 HS [|j] // /andP[_ Lj].
rewrite (recursion_spec cn H0 HS Hi Lj); congr (_ *m _).
by rewrite !big_pred0 ?subr0 // => k; rewrite (ord1 k).
Qed.

(** ** The example *)
Section Dv.
Variable F : realFieldType.
Local Notation o0 := (ord0 : 'I_3).
Local Notation o1 := (lift ord0 ord0 : 'I_3).
Local Notation o2 := (lift ord0 (lift ord0 ord0) : 'I_3).
Local Notation l := (126%:R / 125%:R : F).
Lemma ord3 (P : 'I_3 -> Prop) : P o0 -> P o1 -> P o2 -> forall a, P a.
Proof.
move=> A B C [[|[|[|]]] h] //.
- by have -> : Ordinal h = o0 by apply: val_inj.
- by have -> : Ordinal h = o1 by apply: val_inj.
- by have -> : Ordinal h = o2 by apply: val_inj.
Qed.
Lemma dv_S0 bw (v : 'cV[F]_3) : let w := smoother (col ord0 (dv_x F)) (dv_wt ord0 bw) *m v in
  [/\ w o0 ord0 = (v o0 ord0 + 3%:R * v o1 ord0) / 10%:R, w o1 ord0 = 3%:R * ((v o0 ord0 + 3%:R * v o1 ord0) / 10%:R) & w o2 ord0 = v o2 ord0].
Proof.
cbv zeta; split; rewrite !mxE !big_ord_recl big_ord0 !mxE !big_ord_recl !big_ord0 !mxE /=.
- by move: (v _ _) (v _ _) (v _ _) => a b c; field.
- by move: (v _ _) (v _ _) (v _ _) => a b c; field.
- by move: (v _ _) (v _ _) (v _ _) => a b c; field.
Qed.
Lemma dv_S1 bw (v : 'cV[F]_3) : let w := smoother (col ord_max (dv_x F)) (dv_wt ord_max bw) *m v in
  [/\ w o0 ord0 = (3%:R * v o0 ord0 + v o1 ord0) / 5%:R, w o1 ord0 = (2%:R * v o0 ord0 + 24%:R * v o1 ord0) / 25%:R & w o2 ord0 = v o2 ord0].
Proof.
cbv zeta; split; rewrite !mxE !big_ord_recl big_ord0 !mxE !big_ord_recl !big_ord0 !mxE /=.
- by move: (v _ _) (v _ _) (v _ _) => a b c; field.
- by move: (v _ _) (v _ _) (v _ _) => a b c; field.
- by move: (v _ _) (v _ _) (v _ _) => a b c; field.
Qed.
Lemma dv_yv (v : 'cV[F]_3) : [/\ (dv_y F - v) o0 ord0 = 1 - v o0 ord0, (dv_y F - v) o1 ord0 = 2%:R - v o1 ord0 & (dv_y F - v) o2 ord0 = 3%:R - v o2 ord0].
Proof. by split; rewrite !mxE. Qed.
(* the shares after a sweep, from what the second variable contributed before *)
Lemma dv_sweep bw0 bw1 (g g0 g1 : 'cV[F]_3) (c : F) : c = ((1 - g o0 ord0) + 3%:R * (2%:R - g o1 ord0)) / 10%:R ->
  g0 = smoother (col ord0 (dv_x F)) (dv_wt ord0 bw0) *m (dv_y F - g) ->
  g1 = smoother (col ord_max (dv_x F)) (dv_wt ord_max bw1) *m (dv_y F - g0) ->
  [/\ g0 o0 ord0 = c, g0 o1 ord0 = 3%:R * c, g1 o0 ord0 = 1 - 6%:R / 5%:R * c, g1 o1 ord0 = 2%:R - 74%:R / 25%:R * c &
      g0 o2 ord0 + g1 o2 ord0 = 3%:R].
Proof.
move=> Ec E0 E1.
have [A0 A1 A2] := dv_S0 bw0 (dv_y F - g); have [B0 B1 B2] := dv_S1 bw1 (dv_y F - g0).
have [Y0 Y1 Y2] := dv_yv g; have [Z0 Z1 Z2] := dv_yv g0.
rewrite -E0 Y0 Y1 Y2 -?Ec in A0 A1 A2; rewrite -E1 Z0 Z1 Z2 A0 A1 in B0 B1 B2.
split=> //.
- by rewrite B0; field.
- by rewrite B1; field.
- rewrite B2; by move: (g0 _ _) => u; ring.
Qed.
Lemma dv_next (g : 'cV[F]_3) c : g o0 ord0 = 1 - 6%:R / 5%:R * c -> g o1 ord0 = 2%:R - 74%:R / 25%:R * c ->
  l * c = ((1 - g o0 ord0) + 3%:R * (2%:R - g o1 ord0)) / 10%:R.
Proof. by move=> -> ->; field. Qed.
Lemma dv_rss (b : 'M[F]_(3, 2)) c :
  [/\ share (dv_x F) b ord0 o0 ord0 = c, share (dv_x F) b ord0 o1 ord0 = 3%:R * c,
      share (dv_x F) b ord_max o0 ord0 = 1 - 6%:R / 5%:R * c, share (dv_x F) b ord_max o1 ord0 = 2%:R - 74%:R / 25%:R * c &
      share (dv_x F) b ord0 o2 ord0 + share (dv_x F) b ord_max o2 ord0 = 3%:R] ->
  rss_of (dv_x F) b (dv_y F) = 26%:R / 625%:R * c ^+ 2.
Proof.
have E a : \sum_i dv_x F a i * b a i = share (dv_x F) b ord0 a ord0 + share (dv_x F) b ord_max a ord0.
  rewrite big_ord_recl big_ord1 ![share _ _ _ _ _]mxE.
  by rewrite (_ : lift ord0 ord0 = ord_max) //; apply: val_inj.
move=> [A B C D G]; rewrite /rss_of (eq_bigr _ (fun a _ => f_equal (fun z => (dv_y F a ord0 - z) ^+ 2) (E a))).
rewrite !big_ord_recl big_ord0 A B C D G.
have [Y0 Y1 Y2] := dv_yv 0; rewrite !subr0 in Y0 Y1 Y2; rewrite Y0 Y1 Y2 ![(0 : 'cV[F]_3) _ _]mxE.
by field.
Qed.
Section Grow.
Variables (inv : 'M[F]_1 -> option 'M[F]_1) (hat : bool) (s : fitted_model F 3 2) (bw : 'I_2 -> F).
Variables (select : nat -> 'I_2 -> 'cV[F]_3 -> 'cV[F]_3 -> F -> outcome F) (threshold : 'I_2 -> F) (retry : nat).
Variables (sts : nat -> ms F 3 2) (K : nat).
Hypothesis cn : inverse_contract inv.
Hypothesis H0 : sts 0%N = ms_start (dv_x F) (dv_y F) s bw (fun _ => ISpecified).
Hypothesis HS : forall j, (j < K)%N -> sweep inv hat (dv_x F) (dv_y F) (@dv_wt F) select threshold retry (fun _ _ => false) (fun _ _ => false) (fun _ _ _ => false)
  j.+1 (enum 'I_2) (sts j) = Ok (sts j.+1).
Local Notation c1 := (((1 - mbetas (sts 0%N) o0 ord_max) + 3%:R * (2%:R - 2%:R * mbetas (sts 0%N) o1 ord_max)) / 10%:R).
Local Notation f i j := (share (dv_x F) (mbetas (sts j)) i).
Lemma grow_shares j : (j < K)%N -> let c := l ^+ j * c1 in
  [/\ f ord0 j.+1 o0 ord0 = c, f ord0 j.+1 o1 ord0 = 3%:R * c, f ord_max j.+1 o0 ord0 = 1 - 6%:R / 5%:R * c,
      f ord_max j.+1 o1 ord0 = 2%:R - 74%:R / 25%:R * c & f ord0 j.+1 o2 ord0 + f ord_max j.+1 o2 ord0 = 3%:R].
Proof.
cbv zeta; elim: j => [|j IH] Lj; have [A B] := two_step cn H0 HS Lj.
  apply: (dv_sweep _ A B); rewrite expr0 mul1r ![share _ _ _ _ _]mxE.
  by rewrite ![dv_x F _ _]mxE /= mul1r.
have [_ _ P Q _] := IH (ltnW Lj).
apply: (dv_sweep _ A B); rewrite exprS -mulrA; exact: dv_next.
Qed.
Lemma grow_main j : (j < K)%N -> let c := l ^+ j * c1 in
  [/\ forall a : 'I_3, (a < 2)%N -> mbetas (sts j.+1) a ord0 = c &
      rss_of (dv_x F) (mbetas (sts j.+1)) (dv_y F) = 26%:R / 625%:R * c ^+ 2].
Proof.
move=> Lj; have H := grow_shares Lj; move: H; cbv zeta => H; split; last exact: dv_rss H.
case: H => A B _ _ _; apply: ord3 => // _.
  by rewrite -A ![share _ _ _ _ _]mxE [dv_x F _ _]mxE /= mul1r.
have N3 : 3%:R != 0 :> F by rewrite pnatr_eq0.
apply: (mulfI N3); rewrite -B ![share _ _ _ _ _]mxE; by rewrite [dv_x F _ _]mxE.
Qed.
End Grow.
(* the initial coefficients *)
Definition dv_b0 : 'cV[F]_2 := \col_i (if i == ord0 then - 2%:R else 4%:R).
Definition dv_i : 'M[F]_2 := \matrix_(i, k) (if i == k then (if i == ord0 then 3%:R else 11%:R / 2%:R) else - 4%:R).
Lemma dv_unit (w : 'I_3 -> 'cV[F]_3) a : w = (fun _ => const_mx 1) -> xtw (dv_x F) (w a) *m dv_x F \in unitmx.
Proof.
move=> ->; suff /mulmx1_unit[] : xtw (dv_x F) (const_mx 1) *m dv_x F *m dv_i = 1%:M by [].
apply/matrixP => i k; rewrite !mxE !big_ord_recl big_ord0 !mxE !big_ord_recl !big_ord0 !mxE.
by case: i => [[|[|]]] // hi; case: k => [[|[|]]] // hk; rewrite /=; field.
Qed.
Lemma dv_initial inv hat s : inverse_contract inv ->
  fit_core inv hat hat 0 3 (dv_x F) (dv_y F) (fun _ => const_mx 1) (fun _ => false) = Ok (s, false) ->
  forall a i, betas s i a = dv_b0 i ord0.
Proof.
move=> cn /fit_core_desc D a i.
have ir : a \in range 3 0 3 by rewrite in_range /=.
have := d_betas D ir => /colP /(_ i); rewrite [LHS]mxE => ->.
have ok := allP (d_ok D) _ ir.
have -> : xtw (dv_x F) (const_mx 1) *m dv_y F = xtw (dv_x F) (const_mx 1) *m dv_x F *m dv_b0.
  have [Y0 Y1 Y2] := dv_yv 0; rewrite !subr0 in Y0 Y1 Y2.
  apply/colP => k; rewrite !mxE !big_ord_recl !big_ord0 Y0 Y1 Y2 !mxE !big_ord_recl !big_ord0 !mxE.
  by case: k => [[|[|]]] // hk; rewrite /=; ring.
by rewrite mulmxA (Bof_inv cn ok) mul1mx.
Qed.
End Dv.

Section DvInv.
Variable F : realFieldType.
Lemma dv_inv1 i bw a : @exact_inv F 1 (xtw (col i (dv_x F)) (dv_wt i bw a) *m col i (dv_x F)) <> None.
Proof.
have U (A : 'M[F]_1) : A ord0 ord0 != 0 -> exact_inv A <> None by move=> H; rewrite /exact_inv unitmxE det_mx11 unitfE H.
apply: U; apply: lt0r_neq0; rewrite mxE.
have H k : 0 <= xtw (col i (dv_x F)) (dv_wt i bw a) ord0 k * col i (dv_x F) k ord0.
  rewrite !mxE; apply: mulr_ge0; last by case: ifP; rewrite ?ler01 //; case: ifP; rewrite ler0n.
  apply: mulr_ge0; first by case: ifP; rewrite ?ler01 //; case: ifP; rewrite ler0n.
  by case: ifP; rewrite ?ler01 //; case: ifP => // _; case: ifP; rewrite ?ler01 // invr_ge0 ler0n.
rewrite (bigD1 a) //=; apply: ltr_paddr; first by apply: sumr_ge0.
rewrite !mxE eqxx mulr1; case: ifP; rewrite ?mulr1 ?ltr01 //.
by case: ifP; rewrite mulr_gt0 ?ltr0n.
Qed.
End DvInv.

(** ** The run *)
Section DvRun.
Variable F : rcfType.
Local Notation l := (126%:R / 125%:R : F).
Local Notation c1 := (- (21%:R / 10%:R) : F).
Local Notation rr j := (26%:R / 625%:R * (l ^+ j * c1) ^+ 2).
Local Notation th := (400%:R^-1 : F).
Lemma nat_pos k : (0 < k)%N -> 0 < k%:R :> F. Proof. by rewrite ltr0n. Qed.
Lemma l_ge1 : 1 <= l.
Proof. by rewrite ler_pdivl_mulr ?mul1r ?ler_nat ?nat_pos. Qed.
Lemma rr_next j : rr j.+1 = l ^+ 2 * rr j.
Proof. by rewrite [l ^+ j.+1]exprS; move: (l ^+ j) => u; field. Qed.
Lemma rr_low j : 22%:R / 125%:R <= rr j.
Proof.
have H : 1 <= (l ^+ j) ^+ 2 by rewrite exprn_ege1 // exprn_ege1 // l_ge1.
rewrite -subr_ge0; move: (l ^+ j) H => u H.
have -> : 26%:R / 625%:R * (u * c1) ^+ 2 - 22%:R / 125%:R =
  26%:R / 625%:R * (21%:R / 10%:R) ^+ 2 * (u ^+ 2 - 1) + 233%:R / (250%:R * 125%:R) :> F by field.
apply: addr_ge0; last by rewrite divr_ge0 ?mulr_ge0 ?ler0n.
apply: mulr_ge0; last by rewrite subr_ge0.
by apply: mulr_ge0; [rewrite divr_ge0 ?ler0n|rewrite exprn_ge0 // divr_ge0 ?ler0n].
Qed.
Lemma th_small (t : F) : t <= th -> t < 10%:R^-1.
Proof. by move=> H; apply: le_lt_trans H _; rewrite ltf_pinv ?posrE ?ltr_nat ?nat_pos. Qed.
Lemma root_above (t u : F) : t <= th -> (10%:R^-1) ^+ 2 < u -> t < Num.sqrt u.
Proof.
move=> Ht Hu; apply: lt_trans (th_small Ht) _.
rewrite -[10%:R^-1](ger0_norm (x := 10%:R^-1)) ?invr_ge0 ?ler0n // -sqrtr_sqr ltr_sqrt //.
by apply: le_lt_trans Hu; rewrite exprn_ge0 // invr_ge0 ler0n.
Qed.
Lemma change_on ctype (t : F) j : t <= th -> t < crit_between ctype Num.sqrt (rr j) (rr j.+1).
Proof.
move=> Ht; rewrite /crit_between rr_next.
have L := rr_low j; set r := rr j in L *.
have r0 : 0 < r by apply: lt_le_trans L; rewrite divr_gt0 ?nat_pos.
have E : `|l ^+ 2 * r - r| = 251%:R / (125%:R * 125%:R) * r.
  rewrite (_ : _ - _ = 251%:R / (125%:R * 125%:R) * r); last by field.
  by rewrite ger0_norm //; apply: mulr_ge0; [rewrite divr_ge0 ?mulr_ge0 ?ler0n|exact: ltW].
case: ctype; rewrite E.
  apply: le_lt_trans Ht _; apply: lt_le_trans (_ : 251%:R / (125%:R * 125%:R) * (22%:R / 125%:R) <= _); last first.
    by apply: ler_wpmul2l => //; rewrite divr_ge0 ?mulr_ge0 ?ler0n.
  rewrite -subr_gt0 (_ : _ - _ = (251%:R * 88%:R * 4%:R - 25%:R * 25%:R * 125%:R) / (125%:R * 125%:R * 125%:R * 16%:R)); last by field.
  apply: divr_gt0; last by rewrite !mulr_gt0 ?nat_pos.
  rewrite (_ : _ - _ = 29%:R * 353%:R - 10%:R); last by ring.
  by rewrite subr_gt0 -natrM ltr_nat.
apply: root_above => //.
have -> : 251%:R / (125%:R * 125%:R) * r / (l ^+ 2 * r) = 251%:R / (126%:R * 126%:R).
  by field; rewrite ?pnatr_eq0 ?gt_eqF.
rewrite -subr_gt0 (_ : _ - _ = 2306%:R / (630%:R * 630%:R)); last by field.
by rewrite divr_gt0 ?mulr_gt0 ?nat_pos.
Qed.
Lemma change_first ctype (t : F) : t <= th -> t < crit_between ctype Num.sqrt 2%:R (rr 0).
Proof.
move=> Ht; rewrite /crit_between.
have L := rr_low 0; have U : rr 0 <= 1.
  rewrite -subr_ge0 expr0 mul1r (_ : _ - _ = (100%:R * 255%:R + 17%:R) / (250%:R * 125%:R)); last by field.
  apply: divr_ge0; last by rewrite -natrM ler0n.
  by rewrite -natrM -natrD ler0n.
set r := rr 0 in L U *.
have r0 : 0 < r by apply: lt_le_trans L; rewrite divr_gt0 ?nat_pos.
have D1 : 1 <= `|r - 2%:R|.
  by rewrite distrC ger0_norm ?subr_ge0; [rewrite ler_subr_addl [X in _ <= X](_ : _ = 1 + 1) ?ler_add2r // -natrD|apply: le_trans U _; rewrite ler1n].
case: ctype.
  apply: lt_le_trans (th_small Ht) _; apply: le_trans D1.
  by rewrite invf_le1 ?ler1n ?nat_pos.
apply: root_above => //; apply: lt_le_trans (_ : 1 <= _); last first.
  by rewrite ler_pdivl_mulr // mul1r; apply: le_trans D1.
by rewrite exprn_ilt1 ?invr_ge0 ?ler0n ?invf_lt1 ?ltr1n ?nat_pos.
Qed.
Lemma dv_inv (a : 'I_3) : @exact_inv F 2 (xtw (dv_x F) (const_mx 1) *m dv_x F) <> None.
Proof. by rewrite /exact_inv (dv_unit (w := fun _ => const_mx 1) a). Qed.
Lemma centre_none (x : 'M[F]_(3, 2)) : centre false (fun _ => false) x = x.
Proof. by apply/matrixP => j i; rewrite centre_off // andbF. Qed.
Lemma diverges_main hat bw0 select0 select threshold retry ctype (t : F) m : t <= th ->
  (forall it i xi yi b, exists b', select it i xi yi b = Ok b') ->
  exists st,
  ms_fit (@exact_inv F 1) (@exact_inv F 2) hat false (fun _ => false) (dv_x F) (dv_y F) (fun _ => const_mx 1)
    (fun _ => ISpecified) bw0 select0 (@dv_wt F) select threshold retry
    (fun _ => false) (fun _ _ => false) (fun _ _ => false) (fun _ _ _ => false) ctype t Num.sqrt m.+1
    = Ok (st, 26%:R / 625%:R * (21%:R / 10%:R * l ^+ m) ^+ 2) /\
  (forall a : 'I_3, (a < 2)%N -> mbetas st a ord0 = - (21%:R / 10%:R) * l ^+ m).
Proof.
move=> Ht Hs.
have [[st r] E] : exists q, ms_fit (@exact_inv F 1) (@exact_inv F 2) hat false (fun _ => false) (dv_x F) (dv_y F) (fun _ => const_mx 1)
    (fun _ => ISpecified) bw0 select0 (@dv_wt F) select threshold retry
    (fun _ => false) (fun _ _ => false) (fun _ _ => false) (fun _ _ _ => false) ctype t Num.sqrt m.+1 = Ok q.
  rewrite /ms_fit centre_none.
  have [s ->] : exists s, fit_core (@exact_inv F 2) hat hat 0 3 (dv_x F) (dv_y F) (fun _ => const_mx 1) (fun _ => false) = Ok (s, false).
    by apply: fit_total => i _; exact: dv_inv.
  have -> : init_bandwidths select0 (dv_x F) (dv_y F) (fun _ : 'I_2 => ISpecified) (enum 'I_2) bw0 = Ok bw0 by elim: (enum _).
  by apply: iterate_total => //; exact: dv_inv1.
have [s [bw [sts [K [[Ef S0 Sb SK LK] [Hbw [Sw Go Stop]]]]]]] := C54_trace E.
rewrite centre_none in Ef S0 Go Stop.
have HS j : (j < K)%N -> sweep (@exact_inv F 1) hat (dv_x F) (dv_y F) (@dv_wt F) select threshold retry
    (fun _ _ => false) (fun _ _ => false) (fun _ _ _ => false) j.+1 (enum 'I_2) (sts j) = Ok (sts j.+1).
  by move/Sw => [_]; rewrite centre_none.
have B0 a i : mbetas (sts 0%N) a i = dv_b0 F i ord0.
  by rewrite Sb (dv_initial (@exact_inv_contract _ _) Ef).
have G j (Lj : (j < K)%N) := grow_main (@exact_inv_contract _ _) S0 HS Lj.
have C1 : (1 - mbetas (sts 0%N) ord0 ord_max + 3%:R * (2%:R - 2%:R * mbetas (sts 0%N) (lift ord0 ord0) ord_max)) / 10%:R = c1.
  by rewrite !B0 !mxE /=; field.
have R0 : rss_of (dv_x F) (mbetas (sts 0%N)) (dv_y F) = 2%:R.
  have [Y0 Y1 Y2] := dv_yv (0 : 'cV[F]_3); rewrite !subr0 in Y0 Y1 Y2.
  by rewrite /rss_of !big_ord_recl !big_ord0 !B0 Y0 Y1 Y2 !mxE /=; ring.
have RJ j : (j < K)%N -> rss_of (dv_x F) (mbetas (sts j.+1)) (dv_y F) = rr j.
  by move/G => [_ ->]; rewrite C1.
have KM : K = m.+1.
  apply/eqP; rewrite eqn_leq LK leqNgt; apply/negP => /Stop [//|[j [Ej]]].
  rewrite leNgt => /negP; apply.
  have Lj : (j < K)%N by rewrite Ej.
  rewrite (RJ j Lj); case: j Ej Lj => [|j] Ej Lj; first by rewrite R0; exact: (change_first ctype Ht).
  rewrite RJ; last exact: ltnW. exact: (change_on ctype j Ht).
have Lm : (m < K)%N by rewrite KM.
have [Bm _] := G m Lm; have Rm := RJ m Lm; rewrite -KM SK C1 in Bm Rm.
have [_ Er] := fit_rss E.
exists st; split.
- rewrite E; congr (Ok (_, _)); rewrite Er centre_none -/(rss_of _ _ _) Rm.
  by rewrite mulrN sqrrN [l ^+ m * _]mulrC.
- by move=> a La; rewrite Bm // mulrC.
Qed.
End DvRun.
Section DvSol.
Variable F : realFieldType.
Lemma dv_solution_main (bw : 'I_2 -> F) :
  additive_solution (smoother (col ord0 (dv_x F)) (dv_wt ord0 (bw ord0))) (smoother (col ord_max (dv_x F)) (dv_wt ord_max (bw ord_max)))
    (dv_y F) (share (dv_x F) (dv_b F) ord0) (share (dv_x F) (dv_b F) ord_max) /\
  rss_of (dv_x F) (dv_b F) (dv_y F) = 0.
Proof.
have [Y0 Y1 Y2] := dv_yv (0 : 'cV[F]_3); rewrite !subr0 in Y0 Y1 Y2.
split; last by rewrite /rss_of !big_ord_recl !big_ord0 Y0 Y1 Y2 !mxE /=; ring.
split; apply/colP; apply: ord3.
- have [-> _ _] := dv_S0 (bw ord0) (dv_y F - share (dv_x F) (dv_b F) ord_max); have [-> -> _] := dv_yv (share (dv_x F) (dv_b F) ord_max).
  by rewrite !mxE /=; field.
- have [_ -> _] := dv_S0 (bw ord0) (dv_y F - share (dv_x F) (dv_b F) ord_max); have [-> -> _] := dv_yv (share (dv_x F) (dv_b F) ord_max).
  by rewrite !mxE /=; field.
- have [_ _ ->] := dv_S0 (bw ord0) (dv_y F - share (dv_x F) (dv_b F) ord_max); have [_ _ ->] := dv_yv (share (dv_x F) (dv_b F) ord_max).
  by rewrite !mxE /=; ring.
- have [-> _ _] := dv_S1 (bw ord_max) (dv_y F - share (dv_x F) (dv_b F) ord0); have [-> -> _] := dv_yv (share (dv_x F) (dv_b F) ord0).
  by rewrite !mxE /=; field.
- have [_ -> _] := dv_S1 (bw ord_max) (dv_y F - share (dv_x F) (dv_b F) ord0); have [-> -> _] := dv_yv (share (dv_x F) (dv_b F) ord0).
  by rewrite !mxE /=; field.
- have [_ _ ->] := dv_S1 (bw ord_max) (dv_y F - share (dv_x F) (dv_b F) ord0); have [_ _ ->] := dv_yv (share (dv_x F) (dv_b F) ord0).
  by rewrite !mxE /=; ring.
Qed.
End DvSol.

Lemma recursion_thm (F : realFieldType) n p (inv1 : 'M[F]_1 -> option 'M[F]_1)
    hat (x : 'M[F]_(n, p)) y (s : fitted_model F n p) bw init wt select threshold retry (sts : nat -> ms F n p) K :
  inverse_contract inv1 ->
  sts 0%N = ms_start x y s bw init ->
  (forall j, (j < K)%N -> sweep inv1 hat x y wt select threshold retry (fun _ _ => false) (fun _ _ => false) (fun _ _ _ => false)
     j.+1 (enum 'I_p) (sts j) = Ok (sts j.+1)) ->
  let f i j := share x (mbetas (sts j)) i in
  forall i j, (j < K)%N ->
  f i j.+1 = smoother (col i x) (wt i (mbw (sts j.+1) i)) *m
    (y - \sum_(k : 'I_p | (k < i)%N) f k j.+1 - \sum_(k : 'I_p | (i < k)%N) f k j).
Proof. by move=> cn H0 HS f i j Lj; apply: (recursion_main cn H0 HS). Qed.
Lemma grows_thm (F : realFieldType) (inv1 : 'M[F]_1 -> option 'M[F]_1) hat (s : fitted_model F 3 2) bw
    select threshold retry (sts : nat -> ms F 3 2) K :
  inverse_contract inv1 ->
  sts 0%N = ms_start (dv_x F) (dv_y F) s bw (fun _ => ISpecified) ->
  (forall j, (j < K)%N -> sweep inv1 hat (dv_x F) (dv_y F) (@dv_wt F) select threshold retry
     (fun _ _ => false) (fun _ _ => false) (fun _ _ _ => false) j.+1 (enum 'I_2) (sts j) = Ok (sts j.+1)) ->
  forall j, (j < K)%N ->
  let b a := mbetas (sts 0%N) a ord_max in
  let c := (126%:R / 125%:R) ^+ j * (((1 - b ord0) + 3%:R * (2%:R - 2%:R * b (lift ord0 ord0))) / 10%:R) in
  (forall a : 'I_3, (a < 2)%N -> mbetas (sts j.+1) a ord0 = c) /\
  rss_of (dv_x F) (mbetas (sts j.+1)) (dv_y F) = 26%:R / 625%:R * c ^+ 2.
Proof. by move=> cn H0 HS j Lj; cbv zeta; have [A B] := grow_main cn H0 HS Lj; split. Qed.

(** ** Cases *)
Section Tr.
Variables (F : realFieldType) (n p : nat) (x : 'M[F]_(n, p)) (y : 'cV[F]_n) (wt : 'I_p -> F -> 'I_n -> 'cV[F]_n) (s0 : ms F n p).
Hypothesis Hw : forall i bw j, @exact_inv F 1 (xtw (col i x) (wt i bw j) *m col i x) <> None.
Lemma trace_exists K : exists sts : nat -> ms F n p, sts 0%N = s0 /\
  forall j, (j < K)%N -> sweep (@exact_inv F 1) true x y wt (fun _ _ _ _ b => Ok b) (fun _ => 1) 5
    (fun _ _ => false) (fun _ _ => false) (fun _ _ _ => false) j.+1 (enum 'I_p) (sts j) = Ok (sts j.+1).
Proof.
elim: K => [|K [sts [H0 H]]]; first by exists (fun _ => s0).
have [st' E] := sweep_total true y Hw (fun it i xi yi b => ex_intro (fun c => Ok b = Ok c) b erefl)
  (fun _ => 1) 5 (fun _ _ => false) (fun _ _ => false) (fun _ _ _ => false) K.+1 (enum 'I_p) (sts K).
exists (fun j => if (j <= K)%N then sts j else st'); split=> // j.
rewrite ltnS leq_eqVlt => /orP[/eqP ->|L]; cbv beta; first by rewrite eqxx ltnn.
by rewrite L orbT; apply: H.
Qed.
End Tr.
Definition ex2_y : 'cV[rat]_2 := \col_j (j.+1)%:R.
Definition ex2_s0 : ms _ 2 2 := ms_start ex2_x ex2_y (Fit (const_mx 2%:R) 0 0 0 0 (fun _ => 0) (fun _ => 0)) (fun _ => 3%:R) (fun _ => ISpecified).
Definition ex2_f0 : 'cV[rat]_2 := const_mx 1.
Definition ex2_f1 : 'cV[rat]_2 := \col_j (if j == ord0 then 0 else 1).
Definition ex2_N (v : 'cV[rat]_2) : rat := `|v ord0 ord0 + v (lift ord0 ord0) ord0|.
Lemma ex2_contract v : ex2_N (smoother (col ord_max ex2_x) (ex2_wt ord_max 3%:R) *m smoother (col ord0 ex2_x) (ex2_wt ord0 3%:R) *m v) <= 2%:R^-1 * ex2_N v.
Proof.
rewrite -mulmxA /ex2_N.
rewrite (_ : (_ + _ : rat) = 2%:R^-1 * (v ord0 ord0 + v (lift ord0 ord0) ord0)); first by rewrite normrM ger0_norm.
rewrite !mxE !big_ord_recl !big_ord0 !mxE !big_ord_recl !big_ord0 !mxE !big_ord_recl !big_ord0 !mxE /=.
by move: (v _ _) (v _ _) => a b; field.
Qed.
Lemma ex2_solution : additive_solution (smoother (col ord0 ex2_x) (ex2_wt ord0 3%:R)) (smoother (col ord_max ex2_x) (ex2_wt ord_max 3%:R)) ex2_y ex2_f0 ex2_f1.
Proof.
split; apply/colP => -[[|[|]]] // h; rewrite !mxE !big_ord_recl !big_ord0 !mxE !big_ord_recl !big_ord0 !mxE /=; exact/eqP.
Qed.
Lemma ex2_converges :
  let S1 := smoother (col ord0 ex2_x) (ex2_wt ord0 3%:R) in
  let S2 := smoother (col ord_max ex2_x) (ex2_wt ord_max 3%:R) in
  (forall v, ex2_N (S2 *m S1 *m v) <= 2%:R^-1 * ex2_N v) /\ additive_solution S1 S2 ex2_y ex2_f0 ex2_f1 /\
  ex2_N (share ex2_x (mbetas ex2_s0) ord_max - ex2_f1) = 1.
Proof.
split; first exact: ex2_contract.
split; first exact: ex2_solution.
by rewrite /ex2_N !mxE /=; apply/eqP.
Qed.
Definition ex1_x : 'M[rat]_(2, 1) := \matrix_(j, i) (j.+1)%:R.
Definition ex1_s0 : ms _ 2 1 := ms_start ex1_x ex2_y (Fit (const_mx 2%:R) 0 0 0 0 (fun _ => 0) (fun _ => 0)) (fun _ => 3%:R) (fun _ => ISpecified).
Lemma ex1_inv1 (i : 'I_1) (bw : rat) (j : 'I_2) : exact_inv (xtw (col i ex1_x) ones *m col i ex1_x) <> None.
Proof. by rewrite /exact_inv unitmxE det_mx11 unitfE !mxE !big_ord_recl big_ord0 !mxE. Qed.
Definition dv_s0 : ms _ 3 2 := ms_start (dv_x [realFieldType of rat]) (dv_y _) (Fit (const_mx 2%:R) 0 0 0 0 (fun _ => 0) (fun _ => 0)) (fun _ => 3%:R) (fun _ => ISpecified).
Lemma dv_trace K : exists sts : nat -> ms _ 3 2, sts 0%N = dv_s0 /\
  forall j, (j < K)%N -> sweep (@exact_inv _ 1) true (dv_x _) (dv_y _) (@dv_wt _) (fun _ _ _ _ b => Ok b) (fun _ => 1) 5
    (fun _ _ => false) (fun _ _ => false) (fun _ _ _ => false) j.+1 (enum 'I_2) (sts j) = Ok (sts j.+1).
Proof. by apply: trace_exists => i bw j; exact: dv_inv1. Qed.
