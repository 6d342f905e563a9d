From mathcomp Require Import all_ssreflect all_algebra ring.
From Verif Require Import Outcome GwrModel GwrSpec GwrProofs GwrCases MsModel MsSpec MsProofs.
Set Implicit Arguments. Unset Strict Implicit. Unset Printing Implicit Defensive.
Import Order.TTheory GRing.Theory Num.Theory.
Local Open Scope ring_scope.

Section Main.
Variables (F : realFieldType) (n p : nat).
Variables (inv1 : 'M[F]_1 -> option 'M[F]_1) (inv : 'M[F]_p -> option 'M[F]_p).
Lemma C53_main ic flags (x0 : 'M[F]_(n, p)) y W0 init bw0 select0
    wt select threshold retry stop_iter stop_var stop_sel stop_in ctype cthreshold root maxiter st r :
  inverse_contract inv ->
  ms_fit inv1 inv true ic flags x0 y W0 init bw0 select0 wt select threshold retry
    stop_iter stop_var stop_sel stop_in ctype cthreshold root maxiter = Ok (st, r) ->
  hats_consistent (centre ic flags x0) (mbetas st) y (mS0 st) (mSA st).
Proof.
move=> c; rewrite /ms_fit; case E: (fit_core _ _ _ _ _ _ _ _ _) => [[s b]| |] //.
case Ei: (init_bandwidths _ _ _ _ _ _) => [bw| |] // Eb.
have Eb0 : b = false.
  move: E; rewrite /fit_core; elim: (range _ _ _) (fit0 F n p) => [|i t IH] s0 /=; first by case.
  case: (fit_step _ _ _ _ _ _ _ _ _) => // s1; exact: IH.
rewrite Eb0 in E.
have H0 := start_hat c bw init E.
by have [] := @hat_iterate _ _ _ _ true _ _ _ _ _ _ _ _ _ _ _ _ _ _ _ _ _ _ _ _ isT H0 Eb.
Qed.
Lemma fit_rss hat ic flags (x0 : 'M[F]_(n, p)) y W0 init bw0 select0
    wt select threshold retry stop_iter stop_var stop_sel stop_in ctype cthreshold root maxiter st r :
  ms_fit inv1 inv hat ic flags x0 y W0 init bw0 select0 wt select threshold retry
    stop_iter stop_var stop_sel stop_in ctype cthreshold root maxiter = Ok (st, r) ->
  (forall j, mresid st j ord0 = y j ord0 - \sum_i centre ic flags x0 j i * mbetas st j i) /\
  r = \sum_j (y j ord0 - \sum_i centre ic flags x0 j i * mbetas st j i) ^+ 2.
Proof.
rewrite /ms_fit; case E: (fit_core _ _ _ _ _ _ _ _ _) => [[s b]| |] //.
case Ei: (init_bandwidths _ _ _ _ _ _) => [bw| |] // Eb.
have H := rss_iterate (erefl _) Eb.
have Hf : fresh (centre ic flags x0) y st by apply: fresh_iterate Eb.
split; last by rewrite H; apply: eq_bigr => j _; rewrite !mxE.
by move=> j; rewrite Hf !mxE.
Qed.
Lemma C54_main hat ic flags (x0 : 'M[F]_(n, p)) y W0 init bw0 select0
    wt select threshold retry stop_iter stop_var stop_sel stop_in ctype cthreshold root maxiter st r :
  ms_fit inv1 inv hat ic flags x0 y W0 init bw0 select0 wt select threshold retry
    stop_iter stop_var stop_sel stop_in ctype cthreshold root maxiter = Ok (st, r) ->
  exists ms, [/\ mfits st = sweeps p ms, (size ms <= maxiter)%N &
    (forall it i, stop_var it i = false /\ stop_sel it i = false) -> all (fun m => m == p) ms].
Proof.
rewrite /ms_fit; case E: (fit_core _ _ _ _ _ _ _ _ _) => [[s b]| |] //.
by case Ei: (init_bandwidths _ _ _ _ _ _) => [bw| |] // /fits_iterate.
Qed.
Lemma C55_main hat ic flags (x0 : 'M[F]_(n, p)) y W0 init bw0 select0
    wt select threshold retry stop_iter stop_var stop_sel stop_in ctype cthreshold root maxiter st r i :
  ms_fit inv1 inv hat ic flags x0 y W0 init bw0 select0 wt select threshold retry
    stop_iter stop_var stop_sel stop_in ctype cthreshold root maxiter = Ok (st, r) ->
  init i = ISpecified -> mbw st i = bw0 i /\ minit st i = ISpecified.
Proof.
rewrite /ms_fit; case E: (fit_core _ _ _ _ _ _ _ _ _) => [[s b]| |] //.
case Ei: (init_bandwidths _ _ _ _ _ _) => [bw| |] // Eb Hi.
have Hw : bw i = bw0 i by apply: init_bandwidths_keep Ei; rewrite Hi.
have H0 : fixed i (bw0 i) (ms_start (centre ic flags x0) y s bw init) by split; rewrite /= ?Hi.
have [H1 ->] := fixed_iterate H0 Eb.
by split=> //; case: (minit st i) H1.
Qed.
Lemma C55_resume hat (x : 'M[F]_(n, p)) y
    wt select threshold retry stop_iter stop_var stop_sel stop_in ctype cthreshold root k it rss0 crit (st st' : ms F n p) r i :
  minit st i = ISpecified ->
  iterate inv1 hat x y wt select threshold retry stop_iter stop_var stop_sel stop_in ctype cthreshold root k it rss0 crit st = Ok (st', r) ->
  mbw st' i = mbw st i /\ minit st' i = ISpecified.
Proof.
move=> Hi E; have H0 : fixed i (mbw st i) st by split; rewrite ?Hi.
have [H1 ->] := fixed_iterate H0 E.
by split=> //; case: (minit st' i) H1.
Qed.
Lemma C55_ext hat (x : 'M[F]_(n, p)) y wt sel1 sel2
    threshold retry stop_iter stop_var stop_sel stop_in ctype cthreshold root k it rss0 crit (st : ms F n p) i :
  minit st i = ISpecified -> (forall it' i', i' != i -> sel1 it' i' = sel2 it' i') ->
  iterate inv1 hat x y wt sel1 threshold retry stop_iter stop_var stop_sel stop_in ctype cthreshold root k it rss0 crit st =
  iterate inv1 hat x y wt sel2 threshold retry stop_iter stop_var stop_sel stop_in ctype cthreshold root k it rss0 crit st.
Proof. move=> Hi Hs; apply: ext_iterate; [exact: Hs|by rewrite Hi]. Qed.

Lemma C56_main (ic : bool) (flags : 'I_p -> bool) (x : 'M[F]_(n, p)) :
  [/\ forall i : 'I_p, ~~ (ic && (i == 0%N :> nat)) -> flags i -> column_mean_zero (centre ic flags x) i,
      forall i : 'I_p, ~~ (ic && (i == 0%N :> nat)) -> flags i ->
        exists m, forall j, centre ic flags x j i = x j i - m,
      forall (i : 'I_p) j, ic && (i == 0%N :> nat) || ~~ flags i -> centre ic flags x j i = x j i &
      centre ic flags (centre ic flags x) = centre ic flags x].
Proof.
have P (i : 'I_p) : ((if ic then 1 else 0) <= nat_of_ord i)%N = ~~ (ic && (i == 0%N :> nat)).
  by case: ic; case: (nat_of_ord i).
split; last exact: centre_idem.
- by move=> i; rewrite -P => A B; exact: centre_mean.
- by move=> i; rewrite -P => A B; exists (col_mean x i) => j; exact: centre_on.
- by move=> i j H; apply: centre_off; rewrite P negb_and negbK.
Qed.

Lemma C57_main hat (x : 'M[F]_(n, p)) y (s : fitted_model F n p) bw init
    wt select threshold retry stop_iter stop_var stop_sel stop_in ctype cthreshold root maxiter st r it st' :
  inverse_contract inv1 ->
  backfitting inv1 hat x y wt select threshold retry stop_iter stop_var stop_sel stop_in
    ctype cthreshold root maxiter (ms_start x y s bw init) = Ok (st, r) ->
  sweep inv1 hat x y wt select threshold retry (fun _ _ => false) (fun _ _ => false) (fun _ _ _ => false)
    it (enum 'I_p) st = Ok st' ->
  mbetas st' = mbetas st ->
  forall i j, (forall k, 0 <= wt i (mbw st' i) j k ord0) ->
  only_minimiser (col i x) (partial_residual x (mbetas st') y i) (wt i (mbw st' i) j) (const_mx (mbetas st' j i)).
Proof.
move=> c Eb Es E i j.
have Hf : fresh x y st by apply: fresh_iterate Eb.
exact: (@sweep_fixed _ _ _ _ _ _ _ _ _ _ _ _ _ _ c it (enum 'I_p) (fun _ _ => erefl) (fun _ => conj erefl erefl)
         st st' (enum_uniq _) Hf Es E i j (mem_enum _ _)).
Qed.

(** Exact data with constant coefficients are left alone. *)
Lemma exact_core (c : inverse_contract inv1) (x : 'cV[F]_n) (g : F) W (b : 'cV[F]_n) S :
  fit_var_core inv1 x (\col_j (x j ord0 * g)) W (fun _ => false) = Ok (b, S) -> forall j, b j ord0 = g.
Proof.
move=> E j; have [B EB ->] := core_local E j.
have -> : \col_j0 (x j0 ord0 * g) = g *: x by apply/colP => k; rewrite !mxE mulrC.
by rewrite -!scalemxAr mulmxA -mulmxA (c _ _ EB) !mxE mulr1.
Qed.
Lemma exact_sweep (c : inverse_contract inv1) hat (x : 'M[F]_(n, p)) (g : 'cV[F]_p) wt select threshold retry it vars :
  forall st st', fresh x (x *m g) st -> (forall j i, mbetas st j i = g i ord0) ->
  sweep inv1 hat x (x *m g) wt select threshold retry (fun _ _ => false) (fun _ _ => false) (fun _ _ _ => false)
    it vars st = Ok st' -> mbetas st' = mbetas st.
Proof.
elim: vars => [|i t IH] st st' Hf Hg /=; first by case=> <-.
case E: (var_pass _ _ _ _ _ _ _ _ _ _ _ _ _ _) => [[st1 [|]]| |] //; have Hc := cols_pass E.
  by have /= := fits_pass E; case.
have Hf1 := fresh_pass Hf E.
have E1 : mbetas st1 = mbetas st.
  apply/matrixP => j k; have [->|N] := eqVneq k i; last exact: (proj1 (Hc k N)).
  move: E; rewrite /var_pass /=.
  case E: (select_var _ _ _ _ _ _ _ _) => [st2| |] //.
  rewrite /fit_var Hf.
  have -> : x *m g - mfitted x (mbetas st) + part x (mbetas st) i = \col_j (col i x j ord0 * g i ord0).
    apply/colP => k'; rewrite !mxE [X in X - _](_ : _ = \sum_k x k' k * mbetas st k' k) ?subrr ?add0r ?Hg 1?mulrC //.
    by apply: eq_bigr => a _; rewrite Hg.
  case Ec: (fit_var_core _ _ _ _ _) => [[b S]| |] // [<-] /=.
  by rewrite mxE eqxx (exact_core c Ec) Hg.
move=> Et; rewrite (IH st1 st') ?E1 //; by move=> j k; rewrite E1.
Qed.

(** Totality, for the examples *)
Lemma core_total (x y : 'cV[F]_n) W stop : (forall j, inv1 (xtw x (W j) *m x) <> None) ->
  exists b S, fit_var_core inv1 x y W stop = Ok (b, S).
Proof.
move=> H; rewrite /fit_var_core.
suff [st [c [-> /negbTE ->]]] : exists st c, loop (var_step inv1 x y W) stop (enum 'I_n) (VarFit 0 0 false) = Ok (st, c) /\ ~~ vfailed st by exists (vbeta st)^T, (vS st).
have : ~~ vfailed (VarFit (0 : 'M[F]_(1, n)) 0 false) by [].
elim: (enum _) (VarFit _ _ _) => [|i t IH] st Nf /=; first by exists st, false.
case: (stop i); first by exists st, true.
rewrite {1}/var_step; case E: (inv1 _) => [B|]; last by case: (H i).
exact: IH.
Qed.
Section Tot.
Variables (hat : bool) (x : 'M[F]_(n, p)) (y : 'cV[F]_n).
Variable wt : 'I_p -> F -> 'I_n -> 'cV[F]_n.
Variable select : nat -> 'I_p -> 'cV[F]_n -> 'cV[F]_n -> F -> outcome F.
Hypothesis Hw : forall i bw j, inv1 (xtw (col i x) (wt i bw j) *m col i x) <> None.
Hypothesis Hs : forall it i xi yi bw, exists b, select it i xi yi bw = Ok b.
Variables (threshold : 'I_p -> F) (retry : nat).
Variables (stop_iter : nat -> bool) (stop_var stop_sel : nat -> 'I_p -> bool)
          (stop_in : nat -> 'I_p -> 'I_n -> bool).
Variables (ctype : crit_type) (cthreshold : F) (root : F -> F).
Lemma sweep_total it vars : forall st, exists st',
  sweep inv1 hat x y wt select threshold retry stop_var stop_sel stop_in it vars st = Ok st'.
Proof.
elim: vars => [|i t IH] st /=; first by exists st.
have [c [st1 [->]]] : exists c st1, var_pass inv1 hat x y wt select threshold retry stop_var stop_sel stop_in it i st = Ok (st1, c) /\ True.
  rewrite /var_pass; case: (stop_var _ _); first by exists true, st.
  have [st1 ->] : exists st1, select_var x select threshold retry it i (mresid st + part x (mbetas st) i) st = Ok st1.
    rewrite /select_var; case: (is_specified _); first by exists st.
    by have [b ->] := Hs it i (col i x) (mresid st + part x (mbetas st) i) (mbw st i); eexists.
  case: (stop_sel _ _); first by exists true, st1.
  rewrite /fit_var.
  have [b [S ->]] := core_total (mresid st + part x (mbetas st) i) (stop_in it i) (@Hw i (mbw st1 i)).
  by do 2!eexists.
by case: c => _; [exists st1|exact: IH].
Qed.
Lemma iterate_total k : forall it rss0 crit st, exists r,
  iterate inv1 hat x y wt select threshold retry stop_iter stop_var stop_sel stop_in ctype cthreshold root k it rss0 crit st = Ok r.
Proof.
elim: k => [|k IH] it rss0 crit st /=; first by eexists.
case: (if crit is Some c then _ else _); last by eexists.
case: (stop_iter it); first by eexists.
have [st1 ->] := sweep_total it (enum 'I_p) st; exact: IH.
Qed.
End Tot.
End Main.

(** Two observations, intercept and one regressor, all weights one. *)
Definition ex2_x : 'M[rat]_2 := \matrix_(j, i) (if i == ord0 then 1 else if j == ord0 then 0 else 1).
Definition ones : 'cV[rat]_2 := const_mx 1.
Definition ex2_wt (i : 'I_2) (bw : rat) (j : 'I_2) : 'cV[rat]_2 := ones.
Definition ex2_sel (it : nat) (i : 'I_2) (xi yi : 'cV[rat]_2) (bw : rat) : outcome rat := Ok (bw + 1).
Lemma ex2_unit : ex2_x \in unitmx.
Proof.
rewrite unitmxE det_trig; first by rewrite !big_ord_recl big_ord0 !mxE.
by apply/is_trig_mxP => -[[|[|]] hi] // -[[|[|]] hj] // _; rewrite mxE.
Qed.
Lemma ex2_xtw : xtw ex2_x ones = ex2_x^T.
Proof. by apply/matrixP => a j; rewrite !mxE mulr1. Qed.
Lemma ex2_inv : exact_inv (xtw ex2_x ones *m ex2_x) <> None.
Proof. by rewrite /exact_inv ex2_xtw unitmx_mul unitmx_tr ex2_unit. Qed.
Lemma ex2_inv1 i bw j : exact_inv (xtw (col i ex2_x) (ex2_wt i bw j) *m col i ex2_x) <> None.
Proof. by apply: ex_inv; rewrite !mxE; case: i => [[|[|]]]. Qed.
Lemma ex2_wt0 i bw j k : 0 <= ex2_wt i bw j k ord0.
Proof. by rewrite mxE. Qed.
Lemma ex2_run y init stop_iter stop_var stop_sel stop_in : exists r,
  ms_fit (@exact_inv _ 1) (@exact_inv _ 2) true true (fun _ => false) ex2_x y (fun _ => ones) init (fun _ => 3%:R)
    (fun _ _ _ b => Ok (b + 1)) ex2_wt ex2_sel (fun _ => 2%:R^-1) 5 stop_iter stop_var stop_sel stop_in CVR 2%:R^-1 id 500 = Ok r.
Proof.
rewrite /ms_fit.
have -> : centre true (fun _ => false) ex2_x = ex2_x.
  by apply/matrixP => j i; rewrite centre_off // andbF.
have [s ->] : exists s, fit_core (@exact_inv _ 2) true true 0 2 ex2_x y (fun _ => ones) (fun _ => false) = Ok (s, false).
  by apply: fit_total => i _; exact: ex2_inv.
have [bw ->] : exists bw, init_bandwidths (fun _ _ _ b => Ok (b + 1)) ex2_x y init (enum 'I_2) (fun _ => 3%:R) = Ok bw.
  elim: (enum _) (fun _ => 3%:R) => [|i t IH] b /=; first by eexists.
  by rewrite /init_bandwidth; case: (is_null _); exact: IH.
by apply: iterate_total => [|it i xi yi b]; [exact: ex2_inv1|eexists].
Qed.
Definition ex2_g : 'cV[rat]_2 := const_mx 2%:R.
Definition ex2_start : ms _ 2 2 := ms_start ex2_x (ex2_x *m ex2_g) (Fit (const_mx 2%:R) 0 0 0 0 (fun _ => 0) (fun _ => 0))
   (fun _ => 3%:R) (fun _ => INull).
Lemma ex2_fixed : exists st',
  sweep (@exact_inv _ 1) true ex2_x (ex2_x *m ex2_g) ex2_wt ex2_sel (fun _ => 2%:R^-1) 5
    (fun _ _ => false) (fun _ _ => false) (fun _ _ _ => false) 1 (enum 'I_2) ex2_start = Ok st' /\
  mbetas st' = mbetas ex2_start.
Proof.
have [st' E] := sweep_total true (ex2_x *m ex2_g) ex2_inv1 (fun it i xi yi b => ex_intro (fun c => ex2_sel it i xi yi b = Ok c) _ erefl)
  (fun _ => 2%:R^-1) 5 (fun _ _ => false) (fun _ _ => false) (fun _ _ _ => false) 1 (enum 'I_2) ex2_start.
exists st'; split; first exact: E.
apply: (exact_sweep (@exact_inv_contract _ _)) E => //.
by move=> j i; rewrite !mxE.
Qed.
