From mathcomp Require Import all_ssreflect all_algebra ring.
From Verif Require Import Outcome GwrModel GwrSpec GwrProofs MsModel MsSpec.
Set Implicit Arguments. Unset Strict Implicit. Unset Printing Implicit Defensive.
Import Order.TTheory GRing.Theory Num.Theory.
Local Open Scope ring_scope.

Section P.
Variables (F : realFieldType) (n p : nat).
Variable inv : 'M[F]_1 -> option 'M[F]_1.
Implicit Types (x b : 'M[F]_(n, p)) (y : 'cV[F]_n).

(** ** Centring *)
Lemma centre_on (ic : bool) (flags : 'I_p -> bool) x (j : 'I_n) (i : 'I_p) : ((if ic then 1 else 0) <= nat_of_ord i)%N -> flags i ->
  centre ic flags x j i = x j i - col_mean x i.
Proof. by move=> A B; rewrite mxE A B. Qed.
Lemma centre_off (ic : bool) (flags : 'I_p -> bool) x (j : 'I_n) (i : 'I_p) : ~~ (((if ic then 1 else 0) <= nat_of_ord i)%N && flags i) ->
  centre ic flags x j i = x j i.
Proof. by move=> /negbTE A; rewrite mxE A. Qed.
Lemma mean_zero (f : 'I_n -> F) : \sum_j (f j - (\sum_k f k) / n%:R) = 0.
Proof.
case: (n =P 0%N) => [E|/eqP N].
  by rewrite big1 // => i _; have: (i < 0)%N by rewrite -[X in (_ < X)%N]E.
by rewrite big_split /= sumrN sumr_const card_ord -[X in _ - X]mulr_natr mulfVK ?subrr // pnatr_eq0.
Qed.
Lemma centre_mean (ic : bool) (flags : 'I_p -> bool) x (i : 'I_p) : ((if ic then 1 else 0) <= nat_of_ord i)%N -> flags i ->
  \sum_j centre ic flags x j i = 0.
Proof.
move=> A B; under eq_bigr do rewrite centre_on //.
exact: (mean_zero (fun j => x j i)).
Qed.
Lemma centre_idem (ic : bool) (flags : 'I_p -> bool) x : centre ic flags (centre ic flags x) = centre ic flags x.
Proof.
apply/matrixP => j i.
case E: (((if ic then 1 else 0) <= nat_of_ord i)%N && flags i); last by rewrite centre_off ?E.
have /andP[A B] := E.
by rewrite centre_on // /col_mean centre_mean // mul0r subr0.
Qed.

(** ** One variable *)
Section Core.
Variables (x y : 'cV[F]_n) (W : 'I_n -> 'cV[F]_n).
Definition balanced (st : var_fit F n) : Prop :=
  forall j, x j ord0 * vbeta st ord0 j = (vS st *m y) j ord0.
Lemma balanced_step i st st' : balanced st -> var_step inv x y W i st = Ok st' -> balanced st'.
Proof.
rewrite /var_step => H; case: (inv _) => [B|] [<-] //= j.
rewrite mxE [RHS]mxE; case: (eqVneq j i) => [->|N].
  under eq_bigr do rewrite mxE eqxx mxE.
  rewrite mulmxA [X in _ * X]mxE mulr_sumr; apply: eq_bigr => k _; by rewrite mulrA.
under eq_bigr do rewrite mxE (negbTE N).
by rewrite H mxE.
Qed.
Lemma balanced_loop stop idx : forall st st' c, balanced st -> loop (var_step inv x y W) stop idx st = Ok (st', c) ->
  balanced st'.
Proof.
elim: idx => [|i t IH] st st' c H /=; first by case=> <-.
case: (stop i); first by case=> <-.
case E: (var_step _ _ _ _ _ _) => [st1| |] //; exact: IH (balanced_step H E).
Qed.
Lemma core_balanced stop (b : 'cV[F]_n) S : fit_var_core inv x y W stop = Ok (b, S) ->
  forall j, (S *m y) j ord0 = x j ord0 * b j ord0.
Proof.
rewrite /fit_var_core; case E: (loop _ _ _ _) => [[st c]| |] //; case: (vfailed st) => // -[<- <-] j.
have H0 : balanced (VarFit 0 0 false) by move=> k; rewrite mul0mx !mxE mulr0.
by rewrite -(balanced_loop H0 E) mxE.
Qed.
(* every location not stopped holds the local estimate, unless something failed *)
Lemma loop_local idx : forall st st' c, uniq idx ->
  loop (var_step inv x y W) (fun _ => false) idx st = Ok (st', c) -> ~~ vfailed st' ->
  ~~ vfailed st /\
  (forall j, j \in idx -> exists2 B, inv (xtw x (W j) *m x) = Some B
       & vbeta st' ord0 j = (B *m (xtw x (W j) *m y)) ord0 ord0) /\
  (forall j, j \notin idx -> vbeta st' ord0 j = vbeta st ord0 j).
Proof.
elim: idx => [|i t IH] st st' c /=; first by move=> _ [<- _] ->; do 2!split=> //.
case/andP=> Ni Ut.
case E: (var_step _ _ _ _ _ _) => [st1| |] // El Nf.
have [N1 [H1 H2]] := IH _ _ _ Ut El Nf.
move: E; rewrite /var_step; case Ei: (inv _) => [B|] [Es]; last by rewrite -Es in N1.
split; [by rewrite -Es in N1|split].
  move=> j; rewrite inE; case/orP => [/eqP ->|]; last exact: H1.
  exists B => //; by rewrite H2 // -Es /= mxE eqxx.
move=> j; rewrite inE negb_or => /andP[A C].
by rewrite H2 // -Es /= mxE (negbTE A).
Qed.
Lemma core_local (b : 'cV[F]_n) S : fit_var_core inv x y W (fun _ => false) = Ok (b, S) ->
  forall j, exists2 B, inv (xtw x (W j) *m x) = Some B & b j ord0 = (B *m (xtw x (W j) *m y)) ord0 ord0.
Proof.
rewrite /fit_var_core; case E: (loop _ _ _ _) => [[st c]| |] //; case Nf: (vfailed st) => // -[<- _] j.
have [_ [H _]] := loop_local (enum_uniq _) E (negbT Nf).
by have [B EB Hb] := H j (mem_enum _ _); exists B; rewrite // mxE.
Qed.
End Core.

Lemma core_minimal (c : inverse_contract inv) (x y : 'cV[F]_n) W (b : 'cV[F]_n) S :
  fit_var_core inv x y W (fun _ => false) = Ok (b, S) ->
  forall j, (forall k, 0 <= W j k ord0) -> only_minimiser x y (W j) (const_mx (b j ord0)).
Proof.
move=> E j Hw; have [B EB Eb] := core_local E j.
apply: (local_minimal c Hw); rewrite /local EB; congr Some.
by apply/matrixP => a k; rewrite !ord1 [RHS]mxE Eb.
Qed.

(** ** Backfitting *)
Section Run.
Variables (hat : bool) (x : 'M[F]_(n, p)) (y : 'cV[F]_n).
Variable wt : 'I_p -> F -> 'I_n -> 'cV[F]_n.
Variable select : nat -> 'I_p -> 'cV[F]_n -> 'cV[F]_n -> F -> outcome F.
Variables (threshold : 'I_p -> F) (retry : nat).
Variables (stop_iter : nat -> bool) (stop_var stop_sel : nat -> 'I_p -> bool)
          (stop_in : nat -> 'I_p -> 'I_n -> bool).
Variables (ctype : crit_type) (cthreshold : F) (root : F -> F).
Local Notation Fit_var := (fit_var inv hat x y wt stop_in).
Local Notation Select_var := (select_var x select threshold retry).
Local Notation Var_pass := (var_pass inv hat x y wt select threshold retry stop_var stop_sel stop_in).
Local Notation Sweep := (sweep inv hat x y wt select threshold retry stop_var stop_sel stop_in).
Local Notation Iterate := (iterate inv hat x y wt select threshold retry stop_iter stop_var stop_sel stop_in ctype cthreshold root).

(* anything kept by selection and fitting is kept by backfitting *)
Section Keep.
Variable I : ms F n p -> Prop.
Hypothesis Hsel : forall it i yi st st', I st -> Select_var it i yi st = Ok st' -> I st'.
Hypothesis Hfit : forall it i st0 st st', I st0 -> I st ->
  Select_var it i (mresid st0 + part x (mbetas st0) i) st0 = Ok st ->
  Fit_var it i (mresid st0 + part x (mbetas st0) i) st = Ok st' -> I st'.
Lemma keep_pass it i st st' c : I st -> Var_pass it i st = Ok (st', c) -> I st'.
Proof.
rewrite /var_pass => H; case: (stop_var _ _); first by case=> <-.
case E: (select_var _ _ _ _ _ _ _ _) => [st1| |] //.
have H1 := Hsel H E.
case: (stop_sel _ _); first by case=> <-.
case Ef: (fit_var _ _ _ _ _ _ _ _ _ _) => [st2| |] // -[<- _].
exact: Hfit H H1 E Ef.
Qed.
Lemma keep_sweep it vars : forall st st', I st -> Sweep it vars st = Ok st' -> I st'.
Proof.
elim: vars => [|i t IH] st st' H /=; first by case=> <-.
case E: (var_pass _ _ _ _ _ _ _ _ _ _ _ _ _ _) => [[st1 [|]]| |] //.
  by case=> <-; exact: keep_pass E.
exact/IH/(keep_pass H E).
Qed.
Lemma keep_iterate k : forall it rss0 crit st st' r, I st -> Iterate k it rss0 crit st = Ok (st', r) -> I st'.
Proof.
elim: k => [|k IH] it rss0 crit st st' r H /=; first by case=> <-.
case: (if crit is Some c then _ else _); last by case=> <-.
case: (stop_iter it); first by case=> <-.
case E: (sweep _ _ _ _ _ _ _ _ _ _ _ _ _ _) => [st1| |] //.
exact/IH/(keep_sweep H E).
Qed.
End Keep.

Lemma select_same it i yi st st' : Select_var it i yi st = Ok st' ->
  [/\ mbetas st' = mbetas st, mresid st' = mresid st, mS0 st' = mS0 st, mSA st' = mSA st & mfits st' = mfits st].
Proof.
rewrite /select_var; case: (is_specified _); first by case=> <-.
by case: (select _ _ _ _ _) => [b| |] // [<-].
Qed.

(** *** C53 *)
Definition inv_hat (st : ms F n p) : Prop :=
  mresid st = y - mfitted x (mbetas st) /\
  hats_consistent x (mbetas st) y (mS0 st) (mSA st).

Lemma consistent_fit it i st0 st st' : hat -> inv_hat st0 -> inv_hat st ->
  Select_var it i (mresid st0 + part x (mbetas st0) i) st0 = Ok st ->
  Fit_var it i (mresid st0 + part x (mbetas st0) i) st = Ok st' -> inv_hat st'.
Proof.
move=> Hh _ [Hr [H1 H2 H3]] Es.
have [Eb Er E0 EA _] := select_same Es.
rewrite -{}Eb -{}Er /fit_var; case E: (fit_var_core _ _ _ _ _) => [[beta Sv]| |] // [<-].
rewrite /inv_hat /= Hh; split=> //.
set yi := mresid st + _ in E.
set D := mSA st i - mS0 st.
have HD : yi = D *m y + y.
  rewrite /D mulmxBl.
  have -> : mSA st i *m y = part x (mbetas st) i by apply/colP => j; rewrite H2 mxE mulrC.
  have -> : mS0 st *m y = mfitted x (mbetas st) by apply/colP => j; rewrite H3 mxE.
  by rewrite /yi Hr [LHS]addrC -addrA [- _ + _]addrC addrA.
have Hb := core_balanced E.
have HS : (Sv *m D + Sv) *m y = Sv *m yi by rewrite HD mulmxDl mulmxDr mulmxA.
have HA k j : (upd (mSA st) i (Sv *m D + Sv) k *m y) j ord0 = x j k * put_col (mbetas st) i beta j k.
  rewrite /upd [put_col _ _ _ _ _]mxE; case: eqP => [->|_]; last exact: H2.
  by rewrite HS Hb mxE.
have Hsum : Sv *m D + Sv - D = \sum_k upd (mSA st) i (Sv *m D + Sv) k.
  have Eu Z : upd (mSA st) i Z i = Z by rewrite /upd eqxx.
  rewrite (bigD1 i) //= Eu /D opprB; congr (_ + _).
  rewrite H1 (bigD1 i) //= addrC addKr; apply: eq_bigr => k /negbTE E1; by rewrite /upd E1.
split=> // j; rewrite Hsum mulmx_suml summxE; apply: eq_bigr => k _; exact: HA.
Qed.

Lemma hat_iterate k it rss0 crit st st' r : hat -> inv_hat st ->
  Iterate k it rss0 crit st = Ok (st', r) -> inv_hat st'.
Proof.
move=> Hh H E; apply: (@keep_iterate inv_hat) H E.
  move=> it' i yi s s' [Hr Hc] /select_same [E1 E2 E3 E4 _]; by rewrite /inv_hat E1 E2 E3 E4.
move=> it' i s0 s s' H0 H1 Es Ef; exact: (consistent_fit Hh H0 H1 Es Ef).
Qed.

(** *** Residuals and RSS *)
Definition fresh (st : ms F n p) : Prop := mresid st = y - mfitted x (mbetas st).
Lemma fresh_select it i yi st st' : fresh st -> Select_var it i yi st = Ok st' -> fresh st'.
Proof. by rewrite /fresh => H /select_same [-> -> _ _ _]. Qed.
Lemma fresh_fit it i st0 st st' : fresh st0 -> fresh st ->
  Select_var it i (mresid st0 + part x (mbetas st0) i) st0 = Ok st ->
  Fit_var it i (mresid st0 + part x (mbetas st0) i) st = Ok st' -> fresh st'.
Proof. by move=> _ _ _; rewrite /fit_var; case: (fit_var_core _ _ _ _ _) => [[b S]| |] // [<-]. Qed.
Lemma fresh_iterate k it rss0 crit st st' r : fresh st -> Iterate k it rss0 crit st = Ok (st', r) -> fresh st'.
Proof. exact: (@keep_iterate fresh fresh_select fresh_fit). Qed.

Lemma rss_iterate k : forall it rss0 crit st st' r, rss0 = mrss x (mbetas st) y ->
  Iterate k it rss0 crit st = Ok (st', r) -> r = mrss x (mbetas st') y.
Proof.
elim: k => [|k IH] it rss0 crit st st' r H /=; first by case=> <- <-.
case: (if crit is Some c then _ else _); last by case=> <- <-.
case: (stop_iter it); first by case=> <- <-.
by case E: (sweep _ _ _ _ _ _ _ _ _ _ _ _ _ _) => [st1| |] //; exact: IH.
Qed.

(** *** C54 *)
Lemma fits_pass it i st st' c : Var_pass it i st = Ok (st', c) ->
  if c then mfits st' = mfits st /\ (stop_var it i || stop_sel it i) else mfits st' = rcons (mfits st) i.
Proof.
rewrite /var_pass; case: (stop_var _ _); first by case=> <- <-.
case E: (select_var _ _ _ _ _ _ _ _) => [st1| |] //.
have [_ _ _ _ Ef] := select_same E.
case: (stop_sel _ _); first by case=> <- <-.
rewrite /fit_var; case: (fit_var_core _ _ _ _ _) => [[b S]| |] // [<- <-] /=.
by rewrite Ef.
Qed.
Lemma fits_sweep it vars : forall st st', Sweep it vars st = Ok st' ->
  exists m, mfits st' = mfits st ++ take m vars /\
    (m = size vars \/ (m < size vars)%N /\ has (fun i => stop_var it i || stop_sel it i) vars).
Proof.
elim: vars => [|i t IH] st st' /=; first by case=> <-; exists 0%N; rewrite cats0; split; [|left].
case E: (var_pass _ _ _ _ _ _ _ _ _ _ _ _ _ _) => [[st1 [|]]| |] //; have := fits_pass E.
  by move=> [H1 H2] [<-]; exists 0%N; rewrite take0 cats0 H1; split=> //; right; rewrite H2.
move=> H1 /IH [m [Hm Hs]]; exists m.+1; rewrite Hm H1 cat_rcons /=; split=> //.
by case: Hs => [->|[H2 H3]]; [left|right; rewrite H3 orbT ltnS].
Qed.
Lemma fits_iterate k : forall it rss0 crit st st' r, Iterate k it rss0 crit st = Ok (st', r) ->
  exists ms, [/\ mfits st' = mfits st ++ sweeps p ms, (size ms <= k)%N &
    (forall it i, stop_var it i = false /\ stop_sel it i = false) -> all (fun m => m == p) ms].
Proof.
elim: k => [|k IH] it rss0 crit st st' r /=; first by case=> <- _; exists [::]; rewrite cats0.
case: (if crit is Some c then _ else _); last by case=> <- _; exists [::]; rewrite cats0.
case: (stop_iter it); first by case=> <- _; exists [::]; rewrite cats0.
case E: (sweep _ _ _ _ _ _ _ _ _ _ _ _ _ _) => [st1| |] // /IH [ms [H1 H2 H3]].
have [m [Hm Hs]] := fits_sweep E.
exists (m :: ms); split=> //; first by rewrite H1 Hm -catA /sweeps.
move=> Hn /=; rewrite H3 // andbT.
case: Hs => [->|[_ /hasP[i _]]]; first by rewrite size_enum_ord.
by have [-> ->] := Hn it i.
Qed.

(** *** C55 *)
Definition fixed (i : 'I_p) (v : F) (st : ms F n p) : Prop := is_specified (minit st i) /\ mbw st i = v.
Lemma fixed_select v i0 it i yi st st' : fixed i0 v st -> Select_var it i yi st = Ok st' -> fixed i0 v st'.
Proof.
rewrite /select_var /fixed => -[H1 H2]; case E: (is_specified _); first by case=> <-.
case: (select _ _ _ _ _) => [b| |] // [<-] /=.
have N : i0 <> i by move=> Ei; rewrite Ei E in H1.
rewrite /upd; case: eqP => // _; split=> //.
by case: (_ && _) => //; case: eqP.
Qed.
Lemma fixed_fit v i0 it i st0 st st' : fixed i0 v st0 -> fixed i0 v st ->
  Select_var it i (mresid st0 + part x (mbetas st0) i) st0 = Ok st ->
  Fit_var it i (mresid st0 + part x (mbetas st0) i) st = Ok st' -> fixed i0 v st'.
Proof. by move=> _ H _; rewrite /fit_var; case: (fit_var_core _ _ _ _ _) => [[b S]| |] // [<-]. Qed.
Lemma fixed_iterate v i k it rss0 crit st st' r : fixed i v st -> Iterate k it rss0 crit st = Ok (st', r) -> fixed i v st'.
Proof. exact: (@keep_iterate (fixed i v) (@fixed_select v i) (@fixed_fit v i)). Qed.

(** *** C57 *)
Lemma cols_pass it i st st' c : Var_pass it i st = Ok (st', c) ->
  forall k, k != i -> (forall j, mbetas st' j k = mbetas st j k) /\ mbw st' k = mbw st k.
Proof.
rewrite /var_pass; case: (stop_var _ _); first by case=> <-.
case E: (select_var _ _ _ _ _ _ _ _) => [st1| |] //.
have [Eb _ _ _ _] := select_same E.
have Ew k : k != i -> mbw st1 k = mbw st k.
  move=> /negbTE N; move: E; rewrite /select_var; case: (is_specified _); first by case=> <-.
  by case: (select _ _ _ _ _) => [b| |] // [<-] /=; rewrite /upd N.
case: (stop_sel _ _); first by case=> <- _ k N; rewrite Eb; split; [|exact: Ew].
rewrite /fit_var; case: (fit_var_core _ _ _ _ _) => [[b S]| |] // [<- _] k N /=.
by split; [move=> j; rewrite mxE (negbTE N) Eb|exact: Ew].
Qed.
Lemma cols_sweep it vars : forall st st', Sweep it vars st = Ok st' ->
  forall k, k \notin vars -> (forall j, mbetas st' j k = mbetas st j k) /\ mbw st' k = mbw st k.
Proof.
elim: vars => [|i t IH] st st' /=; first by case=> <-.
case E: (var_pass _ _ _ _ _ _ _ _ _ _ _ _ _ _) => [[st1 [|]]| |] //; have H := cols_pass E.
  by case=> <- k; rewrite inE negb_or => /andP[/H].
move=> /IH H2 k; rewrite inE negb_or => /andP[/H [A1 A2] /H2 [B1 B2]].
by split; [move=> j; rewrite B1 A1|rewrite B2].
Qed.

Lemma resid_part (b : 'M[F]_(n, p)) i : y - mfitted x b + part x b i = partial_residual x b y i.
Proof.
apply/colP => j; rewrite !mxE (bigD1 i) //=.
by move: (\sum_(_ | _) _) => s; gring.
Qed.

Lemma loop_never (m : nat) (S : Type) (step : 'I_m -> S -> outcome S) stop idx : (forall i, stop i = false) ->
  forall st, loop step stop idx st = loop step (fun _ => false) idx st.
Proof.
move=> H; elim: idx => [|i t IH] st //=; rewrite H; by case: (step i st).
Qed.

Lemma pass_minimal (c : inverse_contract inv) it i st st' : fresh st ->
  (forall j, stop_in it i j = false) -> Var_pass it i st = Ok (st', false) ->
  forall j, (forall k, 0 <= wt i (mbw st' i) j k ord0) ->
  only_minimiser (col i x) (partial_residual x (mbetas st) y i) (wt i (mbw st' i) j) (const_mx (mbetas st' j i)).
Proof.
move=> Hr Hs; rewrite /var_pass; case: (stop_var _ _) => //.
case E: (select_var _ _ _ _ _ _ _ _) => [st1| |] //.
have [Eb _ _ _ _] := select_same E.
case: (stop_sel _ _) => //.
rewrite /fit_var Hr resid_part.
case Ec: (fit_var_core _ _ _ _ _) => [[b S]| |] // [<-] /= j Hw.
move: Ec; rewrite /fit_var_core (loop_never _ _ Hs) => Ec.
rewrite [put_col _ _ _ _ _]mxE eqxx.
exact: (core_minimal c (b := b) (S := S) Ec Hw).
Qed.

Lemma fresh_pass it i st st' c : fresh st -> Var_pass it i st = Ok (st', c) -> fresh st'.
Proof. exact: (@keep_pass fresh fresh_select fresh_fit). Qed.

Lemma sweep_fixed (c : inverse_contract inv) it (vars : seq 'I_p) :
  (forall i j, stop_in it i j = false) -> (forall i, stop_var it i = false /\ stop_sel it i = false) ->
  forall st st', uniq vars -> fresh st -> Sweep it vars st = Ok st' -> mbetas st' = mbetas st ->
  forall i j, i \in vars -> (forall k, 0 <= wt i (mbw st' i) j k ord0) ->
  only_minimiser (col i x) (partial_residual x (mbetas st') y i) (wt i (mbw st' i) j) (const_mx (mbetas st' j i)).
Proof.
move=> Hs Hn; elim: vars => [|i0 t IH] st st' //= /andP[Ni Ut] Hr.
case E: (var_pass _ _ _ _ _ _ _ _ _ _ _ _ _ _) => [[st1 [|]]| |] //.
  have := fits_pass E; by have [-> ->] := Hn i0; case.
move=> Et Eb.
have Hc := cols_sweep Et Ni.
have E1 : mbetas st1 = mbetas st.
  apply/matrixP => j k; have [->|N] := eqVneq k i0; first by rewrite -(proj1 Hc) Eb.
  exact: (proj1 (cols_pass E N)).
move=> i j; rewrite inE => /orP[/eqP ->|it']; last first.
  apply: (IH st1) => //; [exact: fresh_pass E|by rewrite E1].
rewrite (proj2 Hc) {1 2}Eb -{2}E1 => Hw.
by apply: pass_minimal E _ _.
Qed.
End Run.

(** C55: the selector is not consulted for a specified variable *)
Section Ext.
Variables (hat : bool) (x : 'M[F]_(n, p)) (y : 'cV[F]_n).
Variable wt : 'I_p -> F -> 'I_n -> 'cV[F]_n.
Variables (sel1 sel2 : nat -> 'I_p -> 'cV[F]_n -> 'cV[F]_n -> F -> outcome F) (i0 : 'I_p).
Hypothesis Hsel : forall it i, i != i0 -> sel1 it i = sel2 it i.
Variables (threshold : 'I_p -> F) (retry : nat).
Variables (stop_iter : nat -> bool) (stop_var stop_sel : nat -> 'I_p -> bool)
          (stop_in : nat -> 'I_p -> 'I_n -> bool).
Variables (ctype : crit_type) (cthreshold : F) (root : F -> F).
Lemma ext_pass it i st : is_specified (minit st i0) ->
  var_pass inv hat x y wt sel1 threshold retry stop_var stop_sel stop_in it i st =
  var_pass inv hat x y wt sel2 threshold retry stop_var stop_sel stop_in it i st.
Proof.
move=> H; rewrite /var_pass; case: (stop_var _ _) => //.
suff -> : select_var x sel1 threshold retry it i (mresid st + part x (mbetas st) i) st =
          select_var x sel2 threshold retry it i (mresid st + part x (mbetas st) i) st by [].
rewrite /select_var; case: (eqVneq i i0) => [->|N]; first by rewrite H.
by rewrite Hsel.
Qed.
Lemma spec_pass it i st st' c : is_specified (minit st i0) ->
  var_pass inv hat x y wt sel2 threshold retry stop_var stop_sel stop_in it i st = Ok (st', c) ->
  is_specified (minit st' i0).
Proof.
move=> H E.
have [] // := @keep_pass hat x y wt sel2 threshold retry stop_var stop_sel stop_in (fixed i0 (mbw st i0))
   (@fixed_select _ _ _ _ _ _) (@fixed_fit _ _ _ _ _ _ _ _ _ _) it i st st' c _ E.
Qed.
Lemma ext_sweep it vars : forall st, is_specified (minit st i0) ->
  sweep inv hat x y wt sel1 threshold retry stop_var stop_sel stop_in it vars st =
  sweep inv hat x y wt sel2 threshold retry stop_var stop_sel stop_in it vars st.
Proof.
elim: vars => [|i t IH] st H //=; rewrite ext_pass //.
case E: (var_pass _ _ _ _ _ _ _ _ _ _ _ _ _ _) => [[st1 [|]]| |] //.
exact/IH/(spec_pass H E).
Qed.
Lemma spec_sweep it vars : forall st st', is_specified (minit st i0) ->
  sweep inv hat x y wt sel2 threshold retry stop_var stop_sel stop_in it vars st = Ok st' -> is_specified (minit st' i0).
Proof.
elim: vars => [|i t IH] st st' H /=; first by case=> <-.
case E: (var_pass _ _ _ _ _ _ _ _ _ _ _ _ _ _) => [[st1 [|]]| |] //.
  by case=> <-; exact: spec_pass E.
exact/IH/(spec_pass H E).
Qed.
Lemma ext_iterate k : forall it rss0 crit st, is_specified (minit st i0) ->
  iterate inv hat x y wt sel1 threshold retry stop_iter stop_var stop_sel stop_in ctype cthreshold root k it rss0 crit st =
  iterate inv hat x y wt sel2 threshold retry stop_iter stop_var stop_sel stop_in ctype cthreshold root k it rss0 crit st.
Proof.
elim: k => [|k IH] it rss0 crit st H //=; rewrite ext_sweep //.
case: (if crit is Some c then _ else _) => //; case: (stop_iter it) => //.
case E: (sweep _ _ _ _ _ _ _ _ _ _ _ _ _ _) => [st1| |] //.
exact/IH/(spec_sweep H E).
Qed.
End Ext.

(** Initial bandwidths *)
Lemma init_bandwidths_keep select0 x y init i : ~~ is_null (init i) -> forall vars bw bw',
  init_bandwidths select0 x y init vars bw = Ok bw' -> bw' i = bw i.
Proof.
move=> N; elim=> [|k t IH] bw bw' /=; first by case=> <-.
rewrite /init_bandwidth; case E: (is_null (init k)); last exact: IH.
case: (select0 _ _ _ _) => [b| |] // /IH ->; rewrite /upd; case: eqP => // Ei.
by rewrite -Ei (negbTE N) in E.
Qed.
End P.

Section Start.
Variables (F : realFieldType) (n p : nat) (inv : 'M[F]_p -> option 'M[F]_p).
Lemma start_hat (cn : inverse_contract inv) (x : 'M[F]_(n, p)) y W s bw init :
  fit_core inv true true 0 n x y W (fun _ => false) = Ok (s, false) ->
  inv_hat x y (ms_start x y s bw init).
Proof.
move=> E; split=> //=.
have [H1 _ _ _] := C44_sum E.
have HC (j : 'I_n) : sliceC s j = cof inv x W j.
  have D := fit_core_desc E.
  have jr : j \in range n 0 n by rewrite in_range ltn_ord.
  by have := d_C D isT (fun _ _ => leq0n _) jr; rewrite subn0.
have Hb (j : 'I_n) : col j (betas s) = sliceC s j *m y.
  by have [] := C87_main cn (leqnn n) E (i := j) (ltn_ord j); rewrite subn0.
have H2 i j : ((\matrix_(j, k) (x j i * sliceC s j i k)) *m y) j ord0 = x j i * (betas s)^T j i.
  rewrite mxE [_^T _ _]mxE.
  have -> : betas s i j = (sliceC s j *m y) i ord0 by rewrite -Hb mxE.
  rewrite [X in _ = _ * X]mxE mulr_sumr; apply: eq_bigr => k _; by rewrite mxE mulrA.
split=> //.
- apply/matrixP => j k; rewrite (stored_full E) summxE [LHS]mxE /sof mxE.
  apply: eq_bigr => a _; rewrite -HC; rewrite [RHS]mxE [row _ _ _ _]mxE; reflexivity.
- by move=> j; rewrite -H1; apply: eq_bigr => a _; rewrite [_^T _ _]mxE.
Qed.
End Start.
