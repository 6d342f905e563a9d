(** Backfitting as a sequence of sweeps: when it stops, and when a bandwidth counts as converged. *)
From mathcomp Require Import all_ssreflect all_algebra.
From Verif Require Import Outcome GwrModel GwrSpec GwrProofs MsModel MsSpec MsProofs MsCases.
Set Implicit Arguments. Unset Strict Implicit. Unset Printing Implicit Defensive.
Import Order.TTheory GRing.Theory Num.Theory.
Local Open Scope ring_scope.

Section P.
Variables (F : realFieldType) (n p : nat).
Variable inv : 'M[F]_1 -> option 'M[F]_1.
Variables (hat : bool) (x : 'M[F]_(n, p)) (y : 'cV[F]_n).
Variable wt : 'I_p -> F -> 'I_n -> 'cV[F]_n.
Variable select : nat -> 'I_p -> 'cV[F]_n -> 'cV[F]_n -> F -> outcome F.
Variables (threshold : 'I_p -> F) (retry : nat).
Variables (stop_iter : nat -> bool) (stop_var stop_sel : nat -> 'I_p -> bool)
          (stop_in : nat -> 'I_p -> 'I_n -> bool).
Variables (ctype : crit_type) (cthreshold : F) (root : F -> F).
Local Notation Fit_var := (fit_var inv hat x y wt stop_in).
Local Notation Select_var := (select_var x select threshold retry).
Local Notation Var_pass := (var_pass inv hat x y wt select threshold retry stop_var stop_sel stop_in).
Local Notation Sweep := (sweep inv hat x y wt select threshold retry stop_var stop_sel stop_in).
Local Notation Iterate := (iterate inv hat x y wt select threshold retry stop_iter stop_var stop_sel stop_in ctype cthreshold root).
Local Notation Rss st := (rss_of x (mbetas st) y).

Lemma mrss_rss b : mrss x b y = rss_of x b y.
Proof. by apply: eq_bigr => j _; rewrite !mxE. Qed.

Definition crit_between (a b : F) : F := match ctype with CVR => `|b - a| | dCVR => root (`|b - a| / b) end.
Definition test (t0 : bool) (sts : nat -> ms F n p) (j : nat) : bool :=
  if j is j'.+1 then cthreshold < crit_between (Rss (sts j')) (Rss (sts j)) else t0.
Definition cons_ms (st : ms F n p) (sts : nat -> ms F n p) (j : nat) := if j is j'.+1 then sts j' else st.
Lemma iterate_trace k : forall it rss0 crit st st' r, rss0 = Rss st -> Iterate k it rss0 crit st = Ok (st', r) ->
  exists sts K, [/\ sts 0%N = st, sts K = st', (K <= k)%N,
    forall j, (j < K)%N -> [/\ stop_iter (it + j)%N = false, Sweep (it + j)%N (enum 'I_p) (sts j) = Ok (sts j.+1) &
      test (if crit is Some c then cthreshold < c else true) sts j] &
    (K < k)%N -> stop_iter (it + K)%N \/ ~~ test (if crit is Some c then cthreshold < c else true) sts K].
Proof.
elim: k => [|k IH] it rss0 crit st st' r Hr /=; first by case=> <- _; exists (fun _ => st), 0%N; split.
case Et: (if crit is Some c then _ else _); last first.
  by case=> <- _; exists (fun _ => st), 0%N; split=> // _; right.
case Es: (stop_iter it); first by case=> <- _; exists (fun _ => st), 0%N; split=> // _; left; rewrite addn0.
case E: (sweep _ _ _ _ _ _ _ _ _ _ _ _ _ _) => [st1| |] // /IH; rewrite mrss_rss => /(_ erefl) [sts [K [H0 HK LK Hj He]]].
exists (cons_ms st sts), K.+1.
have TT j : test true (cons_ms st sts) j.+1 = test (cthreshold < criterion ctype root rss0 (Rss st1)) sts j.
  by case: j => [|j] //=; rewrite H0 /= Hr.
split=> //.
- case=> [_|j]; first by rewrite addn0 /= H0.
  rewrite ltnS => /Hj [A B C]; rewrite TT addnS -addSn; by split.
- by rewrite ltnS TT addnS -addSn => /He.
Qed.

(** ** One uncancelled sweep *)
Hypothesis NS : forall it i, stop_var it i = false /\ stop_sel it i = false.
Definition settled (i : 'I_p) (st st' : ms F n p) : Prop :=
  if is_specified (minit st i) then mbw st' i = mbw st i /\ is_specified (minit st' i)
  else let changed := threshold i < `|mbw st' i - mbw st i| in
       mchg st' i = (if changed then 0%N else (mchg st i).+1) /\
       is_specified (minit st' i) = ~~ changed && (retry <= (mchg st i).+1)%N.
Definition same_at (k : 'I_p) (st st' : ms F n p) : Prop :=
  [/\ mbw st' k = mbw st k, minit st' k = minit st k & mchg st' k = mchg st k].
Lemma fit_books it i yi st st' : Fit_var it i yi st = Ok st' ->
  [/\ mbw st' = mbw st, minit st' = minit st & mchg st' = mchg st].
Proof. by rewrite /fit_var; case: (fit_var_core _ _ _ _ _) => [[b S]| |] // [<-]. Qed.
Lemma select_books it i yi st st' : Select_var it i yi st = Ok st' ->
  settled i st st' /\ (forall k, k != i -> same_at k st st').
Proof.
rewrite /select_var /settled; case E: (is_specified _); first by case=> <-; split=> //; rewrite E.
case: (select _ _ _ _ _) => [b| |] // [<-] /=; split.
  rewrite /upd eqxx; split=> //.
  case Ec: (threshold i < `|b - mbw st i|) => //=.
  by case Er: (retry <= _)%N => //=; rewrite eqxx.
move=> k /negbTE N; rewrite /same_at /= /upd N; split=> //.
by case: (_ && _) => //; rewrite N.
Qed.
Lemma pass_books it i st st' c : Var_pass it i st = Ok (st', c) ->
  [/\ c = false, settled i st st' & forall k, k != i -> same_at k st st'].
Proof.
rewrite /var_pass; have [-> ->] := NS it i.
case E: (select_var _ _ _ _ _ _ _ _) => [st1| |] //.
have [S1 S2] := select_books E.
case Ef: (fit_var _ _ _ _ _ _ _ _ _ _) => [st2| |] // [<- <-].
have [B1 B2 B3] := fit_books Ef.
split=> //; first by rewrite /settled B1 B2 B3.
by move=> k /S2; rewrite /same_at B1 B2 B3.
Qed.
Lemma settled_ext i a b c d : same_at i a b -> same_at i c d -> settled i b c -> settled i a d.
Proof. by rewrite /settled => -[-> -> ->] [-> -> ->]. Qed.
Lemma same_trans k a b c : same_at k a b -> same_at k b c -> same_at k a c.
Proof. by rewrite /same_at => -[<- <- <-]. Qed.
Lemma sweep_books it (vars : seq 'I_p) : forall st st', uniq vars -> Sweep it vars st = Ok st' ->
  (forall i, i \in vars -> settled i st st') /\ (forall k, k \notin vars -> same_at k st st').
Proof.
elim: vars => [|i t IH] st st' /=; first by move=> _ [<-].
case/andP=> Ni Ut.
case E: (var_pass _ _ _ _ _ _ _ _ _ _ _ _ _ _) => [[st1 c]| |] //.
have [Ec S1 S2] := pass_books E; rewrite {}Ec => /(IH _ _ Ut) [T1 T2].
split=> k; rewrite inE.
  case: (eqVneq k i) => [-> _|N /= Hk].
    by apply: (settled_ext (a := st) (b := st) _ (T2 i Ni) S1).
  exact: (settled_ext (S2 k N) (d := st') _ (T1 k Hk)).
rewrite negb_or => /andP[N /T2 H]; exact: same_trans (S2 k N) H.
Qed.

(** ** Convergence of a bandwidth *)
Definition still (i : 'I_p) (sts : nat -> ms F n p) (l : nat) : bool := `|mbw (sts l.+1) i - mbw (sts l) i| <= threshold i.
Definition needed : nat := maxn 1 retry.
Lemma converged_trace (sts : nat -> ms F n p) K it (i : 'I_p) :
  ~~ is_specified (minit (sts 0%N) i) -> mchg (sts 0%N) i = 0%N ->
  (forall j, (j < K)%N -> Sweep (it + j)%N (enum 'I_p) (sts j) = Ok (sts j.+1)) ->
  forall k, (k <= K)%N ->
  is_specified (minit (sts k) i) <-> exists j, (j + needed <= k)%N /\ forall l, (j <= l < j + needed)%N -> still i sts l.
Proof.
move=> N0 C0 HS.
have inv_k k : (k <= K)%N ->
  (is_specified (minit (sts k) i) -> exists j, (j + needed <= k)%N /\ forall l, (j <= l < j + needed)%N -> still i sts l) /\
  (~~ is_specified (minit (sts k) i) ->
    [/\ (mchg (sts k) i < needed)%N, (mchg (sts k) i <= k)%N,
        forall l, (k - mchg (sts k) i <= l < k)%N -> still i sts l &
        (mchg (sts k) i < k)%N -> ~~ still i sts (k - mchg (sts k) i).-1]).
  elim: k => [|k IH] Lk.
    split=> [H|_]; first by rewrite H in N0.
    rewrite C0; split=> //; first by rewrite /needed leq_max.
  have [I1 I2] := IH (ltnW Lk).
  have [SB _] := sweep_books (enum_uniq _) (HS k Lk).
  have := SB i (mem_enum _ _); rewrite /settled.
  case Es: (is_specified (minit (sts k) i)).
    move=> [_ H]; split; last by rewrite H.
    have [j [A B]] := I1 Es. by move=> _; exists j; split=> //; apply: leq_trans A _.
  have [M1 M2 M3 M4] := I2 (negbT Es).
  have Est : still i sts k = ~~ (threshold i < `|mbw (sts k.+1) i - mbw (sts k) i|) by rewrite /still leNgt.
  cbv zeta; case Ec: (threshold i < _) => /= -[Em ->].
    split=> // _; rewrite Em subn0 /=; split=> //; first by rewrite /needed leq_max.
      by move=> l /andP[A B]; have := leq_ltn_trans A B; rewrite ltnn.
    by rewrite Est Ec.
  have Hk : forall l, (k.+1 - (mchg (sts k) i).+1 <= l < k.+1)%N -> still i sts l.
    move=> l; rewrite subSS => /andP[A]; rewrite ltnS leq_eqVlt => /orP[/eqP ->|B]; first by rewrite Est Ec.
    by apply: M3; rewrite A.
  split.
    move=> Hr; have En : needed = (mchg (sts k) i).+1.
      apply/eqP; rewrite eqn_leq M1 andbT /needed geq_max Hr andbT; by [].
    exists (k.+1 - (mchg (sts k) i).+1)%N; rewrite En subnK //; split=> // l Hl; exact: Hk.
  move=> Hr; rewrite Em; split=> //.
  rewrite /needed leq_max; apply/orP; right; by rewrite ltnNge.
move=> k Lk; have [A B] := inv_k k Lk; split=> // -[j [Hj Hl]].
apply: contraT => N.
(* a run of unchanged sweeps ends by marking the variable, and the mark stays *)
have stay l m : (l <= m)%N -> (m <= K)%N -> is_specified (minit (sts l) i) -> is_specified (minit (sts m) i).
  move=> Hlm; rewrite -(subnK Hlm); elim: (m - l)%N => [|d IHd] //= Hm Hs.
  have {IHd} H1 := IHd (ltnW Hm) Hs.
  have [SB _] := sweep_books (enum_uniq _) (HS _ Hm).
  by have := SB i (mem_enum _ _); rewrite /settled H1 => -[].
have N2 : ~~ is_specified (minit (sts (j + needed)%N) i).
  by apply: contra N; apply: stay.
have [_ /(_ N2) [M1 M2 M3 M4]] := inv_k _ (leq_trans Hj Lk).
have P0 : (0 < needed)%N by rewrite /needed leq_max.
have Hlt : (mchg (sts (j + needed)%N) i < j + needed)%N by apply: leq_trans M1 (leq_addl _ _).
have := M4 Hlt; rewrite Hl //.
set c := mchg _ _ in M1 M2 *.
have E1 : (j + needed - c)%N = (j + (needed - c))%N by rewrite addnBA // ltnW.
rewrite E1; have P1 : (0 < needed - c)%N by rewrite subn_gt0.
rewrite -(prednK P1) addnS /= leq_addr ltn_add2l.
by apply: leq_trans (leq_subr c _); rewrite prednK.
Qed.
(** ** What an uncancelled sweep computes, variable by variable *)
Hypothesis NI : forall it i j, stop_in it i j = false.
Definition bookkeeping it (i : 'I_p) (yi : 'cV[F]_n) (st st' : ms F n p) : Prop :=
  (minit st i = ISpecified -> mbw st' i = mbw st i) /\
  (minit st i <> ISpecified -> select it i (col i x) yi (mbw st i) = Ok (mbw st' i)).
Lemma pass_selects it i st st' : fresh x y st -> Var_pass it i st = Ok (st', false) ->
  bookkeeping it i (partial_residual x (mbetas st) y i) st st'.
Proof.
move=> Hf; rewrite /var_pass Hf resid_part; have [-> ->] := NS it i.
rewrite /select_var /bookkeeping; case E: (is_specified _).
  case Ef: (fit_var _ _ _ _ _ _ _ _ _ _) => [st2| |] // [<-].
  by have [-> _ _] := fit_books Ef; split=> // N; case: (minit st i) E N.
case Es: (select _ _ _ _ _) => [b| |] //.
case Ef: (fit_var _ _ _ _ _ _ _ _ _ _) => [st2| |] // [<-].
have [-> _ _] := fit_books Ef; split; first by move=> H; rewrite H in E.
by move=> _ /=; rewrite /upd eqxx.
Qed.
Lemma bookkeeping_ext it i yi a b c d : minit b i = minit a i -> mbw b i = mbw a i -> mbw d i = mbw c i ->
  bookkeeping it i yi b c -> bookkeeping it i yi a d.
Proof. by rewrite /bookkeeping => -> -> ->. Qed.
Definition mixed (before : 'I_p -> bool) (b' b : 'M[F]_(n, p)) : 'M[F]_(n, p) :=
  \matrix_(a, k) (if before k then b' a k else b a k).
Lemma sweep_steps it (vars : seq 'I_p) : forall st st', uniq vars -> fresh x y st -> Sweep it vars st = Ok st' ->
  forall i, i \in vars ->
  let yi := partial_residual x (mixed (fun k => index k vars < index i vars)%N (mbetas st') (mbetas st)) y i in
  bookkeeping it i yi st st' /\
  (inverse_contract inv -> forall j, (forall k, 0 <= wt i (mbw st' i) j k ord0) ->
   only_minimiser (col i x) yi (wt i (mbw st' i) j) (const_mx (mbetas st' j i))).
Proof.
elim: vars => [|i t IH] st st' //= /andP[Ni Ut] Hf.
case E: (var_pass _ _ _ _ _ _ _ _ _ _ _ _ _ _) => [[st1 c]| |] //.
have [Ec _ SA] := pass_books E; rewrite Ec in E * => Et k; rewrite inE.
have Hc := cols_sweep Et; have Hp := cols_pass E; have [_ SB] := sweep_books Ut Et.
case: (eqVneq k i) => [-> _|N /= Hk].
  have -> : mixed (fun k0 => (if i == k0 then 0 else (index k0 t).+1) < 0)%N (mbetas st') (mbetas st) = mbetas st.
    by apply/matrixP => a b; rewrite mxE ltn0.
  have [Hb Hw] := Hc i Ni; split.
    exact: (bookkeeping_ext erefl erefl Hw (pass_selects Hf E)).
  move=> cn j; rewrite Hb Hw => H; exact: (pass_minimal cn Hf (NI it i) E H).
have Hf1 := fresh_pass Hf E.
have := IH st1 st' Ut Hf1 Et k Hk.
have -> : mixed (fun k0 => index k0 t < index k t)%N (mbetas st') (mbetas st1) =
  mixed (fun k0 => (if i == k0 then 0 else (index k0 t).+1) < (index k t).+1)%N (mbetas st') (mbetas st).
  apply/matrixP => a b; rewrite !mxE.
  case: (eqVneq i b) => [<-|Nb] /=.
    by rewrite -(proj1 (Hc i Ni)); case: (_ < _)%N.
  by rewrite ltnS; case: (_ < _)%N => //; rewrite (proj1 (Hp b _)) // eq_sym.
move=> [B M]; split; last exact: M.
have [Q1 Q2 _] := SA k N.
exact: (bookkeeping_ext Q2 Q1 erefl B).
Qed.
End P.

Section Main.
Variables (F : realFieldType) (n p : nat).
Variables (inv1 : 'M[F]_1 -> option 'M[F]_1) (inv : 'M[F]_p -> option 'M[F]_p).
Lemma init_bandwidths_value select0 (x : 'M[F]_(n, p)) y init i : is_null (init i) ->
  forall vars bw bw', uniq vars -> i \in vars ->
  init_bandwidths select0 x y init vars bw = Ok bw' -> select0 i (col i x) y (bw i) = Ok (bw' i).
Proof.
move=> N; elim=> [|k t IH] bw bw' //= /andP[Nk Ut]; rewrite inE /init_bandwidth.
have keep t' b b' : i \notin t' -> init_bandwidths select0 x y init t' b = Ok b' -> b' i = b i.
  elim: t' b b' => [|a t' IHt] b b' /=; first by move=> _ [<-].
  rewrite inE negb_or /init_bandwidth => /andP[Na Nt].
  case: (is_null (init a)); last exact: IHt.
  by case: (select0 _ _ _ _) => // c /(IHt _ _ Nt) ->; rewrite /upd (negbTE Na).
case: (eqVneq i k) Nk => [<- Nk _|Ni Nk /= Hi].
  by rewrite N; case: (select0 _ _ _ _) => // c E; rewrite (keep _ _ _ Nk E) /upd eqxx.
case: (is_null (init k)); last exact: IH.
by case: (select0 _ _ _ _) => // c /(IH _ _ Ut Hi); rewrite /upd (negbTE Ni).
Qed.
Lemma C54_trace hat ic flags (x0 : 'M[F]_(n, p)) y W0 init bw0 select0
    wt select threshold retry stop_iter stop_var stop_sel stop_in ctype cthreshold root maxiter st r :
  ms_fit inv1 inv hat ic flags x0 y W0 init bw0 select0 wt select threshold retry
    stop_iter stop_var stop_sel stop_in ctype cthreshold root maxiter = Ok (st, r) ->
  let x := centre ic flags x0 in
  exists s bw (sts : nat -> ms F n p) K,
    [/\ fit_core inv hat hat 0 n x y W0 (fun _ => false) = Ok (s, false),
        sts 0%N = ms_start x y s bw init, forall j i, mbetas (sts 0%N) j i = betas s i j,
        sts K = st & (K <= maxiter)%N] /\
    (forall i, if is_null (init i) then select0 i (col i x) y (bw0 i) = Ok (bw i) else bw i = bw0 i) /\
    let rss j := rss_of x (mbetas (sts j)) y in
    let change j := match ctype with
      | CVR => `|rss j.+1 - rss j| | dCVR => root (`|rss j.+1 - rss j| / rss j.+1) end in
    [/\ forall j, (j < K)%N -> stop_iter j.+1 = false /\
          sweep inv1 hat x y wt select threshold retry stop_var stop_sel stop_in j.+1 (enum 'I_p) (sts j) = Ok (sts j.+1),
        forall j, (j.+1 < K)%N -> cthreshold < change j &
        (K < maxiter)%N -> stop_iter K.+1 \/ exists j, K = j.+1 /\ change j <= cthreshold].
Proof.
rewrite /ms_fit; case E: (fit_core _ _ _ _ _ _ _ _ _) => [[s b]| |] //.
have Eb0 : b = false.
  move: E; rewrite /fit_core; elim: (range _ _ _) (fit0 F n p) => [|i t IH] s0 /=; first by case.
  case: (fit_step _ _ _ _ _ _ _ _ _) => // s1; exact: IH.
rewrite Eb0 in E *.
case Ei: (init_bandwidths _ _ _ _ _ _) => [bw| |] // Eb.
have [sts [K [H0 HK LK Hj He]]] := iterate_trace (mrss_rss _ _ _) Eb.
exists s, bw, sts, K; split; first by split=> //; move=> j i; rewrite H0 /= mxE.
split.
  move=> i; case En: (is_null (init i)).
    exact: (init_bandwidths_value En (enum_uniq _) (mem_enum _ _) Ei).
  by apply: init_bandwidths_keep Ei; rewrite En.
split.
- by move=> j /Hj [A B _].
- by move=> j /Hj [_ _].
- move=> /He [H|]; first by left.
  case: K {HK LK Hj He} => [|j] //= H; right; exists j; split=> //.
  by rewrite leNgt.
Qed.
Lemma C55_trace hat (x : 'M[F]_(n, p)) y (s : fitted_model F n p) bw init wt select threshold retry stop_in
    (sts : nat -> ms F n p) K :
  sts 0%N = ms_start x y s bw init ->
  (forall j, (j < K)%N -> sweep inv1 hat x y wt select threshold retry (fun _ _ => false) (fun _ _ => false) stop_in
     j.+1 (enum 'I_p) (sts j) = Ok (sts j.+1)) ->
  forall i k, init i <> ISpecified -> (k <= K)%N ->
  (minit (sts k) i = ISpecified <->
   exists j, (j + maxn 1 retry <= k)%N /\
     forall l, (j <= l < j + maxn 1 retry)%N -> `|mbw (sts l.+1) i - mbw (sts l) i| <= threshold i).
Proof.
move=> H0 HS i k Hi Lk.
have N0 : ~~ is_specified (minit (sts 0%N) i) by rewrite H0 /=; case: (init i) Hi.
have C0 : mchg (sts 0%N) i = 0%N by rewrite H0.
have H := @converged_trace _ _ _ _ hat x y wt select threshold retry _ _ stop_in (fun _ _ => conj erefl erefl)
  sts K 1 i N0 C0 HS k Lk.
rewrite -[exists _, _]/(exists j, (j + needed retry <= k)%N /\ forall l, (j <= l < j + needed retry)%N -> still threshold i sts l).
by rewrite -H; case: (minit (sts k) i).
Qed.
Lemma C57_trace hat (x : 'M[F]_(n, p)) y (s : fitted_model F n p) bw init wt select threshold retry
    (sts : nat -> ms F n p) K :
  sts 0%N = ms_start x y s bw init ->
  (forall j, (j < K)%N -> sweep inv1 hat x y wt select threshold retry (fun _ _ => false) (fun _ _ => false) (fun _ _ _ => false)
     j.+1 (enum 'I_p) (sts j) = Ok (sts j.+1)) ->
  forall (i : 'I_p) j, (j < K)%N ->
  let b := \matrix_(a, k) (if (k < i)%N then mbetas (sts j.+1) a k else mbetas (sts j) a k) in
  let yi := partial_residual x b y i in
  [/\ minit (sts j) i = ISpecified -> mbw (sts j.+1) i = mbw (sts j) i,
      minit (sts j) i <> ISpecified -> select j.+1 i (col i x) yi (mbw (sts j) i) = Ok (mbw (sts j.+1) i) &
      inverse_contract inv1 -> forall a, (forall k, 0 <= wt i (mbw (sts j.+1) i) a k ord0) ->
        only_minimiser (col i x) yi (wt i (mbw (sts j.+1) i) a) (const_mx (mbetas (sts j.+1) a i))].
Proof.
move=> H0 HS i j Lj.
have Hf : fresh x y (sts j).
  elim: j Lj => [|j IHj] Lj; first by rewrite H0.
  apply: (@keep_sweep _ _ _ inv1 hat x y wt select threshold retry (fun _ _ => false) (fun _ _ => false) (fun _ _ _ => false)
            (fresh x y) _ _ j.+1 (enum 'I_p) (sts j) (sts j.+1) (IHj (ltnW Lj)) (HS j (ltnW Lj))).
  - by move=> it' i' yi' s1 s2 A B; apply: (fresh_select A B).
  - by move=> it' i' s0 s1 s2 A B C D; apply: (fresh_fit A B C D).
have [] := sweep_steps (fun _ _ => conj erefl erefl) (fun _ _ _ => erefl) (enum_uniq _) Hf (HS j Lj) (mem_enum 'I_p i).
have -> : mixed (fun k => index k (enum 'I_p) < index i (enum 'I_p))%N (mbetas (sts j.+1)) (mbetas (sts j)) =
  \matrix_(a, k) (if (k < i)%N then mbetas (sts j.+1) a k else mbetas (sts j) a k).
  by apply/matrixP => a k; rewrite !mxE !index_enum_ord.
by move=> [A B] C; split.
Qed.
End Main.
Lemma ex2_trace K : exists sts : nat -> ms [realFieldType of rat] 2 2, sts 0%N = ex2_start /\
  forall j, (j < K)%N -> sweep (@exact_inv _ 1) true ex2_x (ex2_x *m ex2_g) ex2_wt ex2_sel (fun _ => 2%:R^-1) 5
    (fun _ _ => false) (fun _ _ => false) (fun _ _ _ => false) j.+1 (enum 'I_2) (sts j) = Ok (sts j.+1).
Proof.
elim: K => [|K [sts [H0 H]]]; first by exists (fun _ => ex2_start).
have [st' E] := sweep_total true (ex2_x *m ex2_g) ex2_inv1 (fun it i xi yi b => ex_intro (fun c => ex2_sel it i xi yi b = Ok c) _ erefl)
  (fun _ => 2%:R^-1) 5 (fun _ _ => false) (fun _ _ => false) (fun _ _ _ => false) K.+1 (enum 'I_2) (sts K).
exists (fun j => if (j <= K)%N then sts j else st'); split=> // j.
rewrite ltnS leq_eqVlt => /orP[/eqP ->|L]; cbv beta; first by rewrite eqxx ltnn.
by rewrite L orbT; apply: H.
Qed.
