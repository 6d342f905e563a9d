From mathcomp Require Import all_ssreflect all_algebra.
From Verif Require Import Outcome GwrModel GwrSpec GwrProofs GwrCases RidgeFitModel RidgeFitSpec.
Set Implicit Arguments. Unset Strict Implicit. Unset Printing Implicit Defensive.
Import Order.TTheory GRing.Theory Num.Theory.
Local Open Scope ring_scope.

Section P.
Variables (F : realFieldType) (n p : nat) (inv : 'M[F]_p -> option 'M[F]_p) (sq : F -> F).
Hypothesis contract : inverse_contract inv.

Lemma variance_sample (v : 'cV[F]_n) : variance v != 0 -> variance v = sample_variance v.
Proof.
rewrite /variance /sample_variance. case: ifP => [_|L]; first by rewrite eqxx.
move=> _; congr (_ / _). case: n L => [|m] //= _. by rewrite -[m.+1]addn1 natrD addrK.
Qed.

(** Augmented problem: one more row per coefficient. *)
Definition aug_x (x : 'M[F]_(n, p)) (d : 'I_p -> F) : 'M[F]_(n + p, p) := col_mx x (\matrix_(a, b) (if a == b then d a else 0)).
Definition aug_w (w : 'cV[F]_n) (l : F) : 'cV[F]_(n + p) := col_mx w (const_mx l).
Definition aug_y (y : 'cV[F]_n) : 'cV[F]_(n + p) := col_mx y 0.

Lemma aug_lower (d : 'I_p -> F) (b : 'cV[F]_p) a :
  ((\matrix_(a, b) (if a == b then d a else 0) : 'M[F]_p) *m b) a ord0 = d a * b a ord0.
Proof.
rewrite mxE (bigD1 a) //= mxE eqxx big1 ?addr0 // => c /negbTE nc. by rewrite mxE eq_sym nc mul0r.
Qed.

Lemma aug_wrss (x : 'M[F]_(n, p)) (y w : 'cV[F]_n) (l : F) (d : 'I_p -> F) (b : 'cV[F]_p) : wrss (aug_x x d) (aug_y y) (aug_w w l) b =
  wrss x y w b + l * \sum_a d a ^+ 2 * b a ord0 ^+ 2.
Proof.
rewrite /wrss big_split_ord /=. congr (_ + _).
- apply: eq_bigr => j _. rewrite /aug_w /aug_y col_mxEu [col_mx y 0 _ _]col_mxEu. by rewrite /aug_x mul_col_mx col_mxEu.
- rewrite mulr_sumr. apply: eq_bigr => a _. rewrite /aug_w /aug_y !col_mxEd /aug_x mul_col_mx col_mxEd aug_lower.
  by rewrite [const_mx _ _ _]mxE [(0 : 'cV_p) _ _]mxE sub0r sqrrN exprMn.
Qed.

Lemma aug_xtw x w l d : xtw (aug_x x d) (aug_w w l) = row_mx (xtw x w) (\matrix_(a, b) (if a == b then d a * l else 0)).
Proof.
apply/matrixP => a j. rewrite xtw_entry. case: (splitP j) => k Hk.
- have -> : j = lshift p k by apply: val_inj. by rewrite row_mxEl xtw_entry /aug_x /aug_w !col_mxEu.
- have -> : j = rshift n k by apply: val_inj. rewrite row_mxEr /aug_x /aug_w !col_mxEd !mxE eq_sym.
  by case: eqP => [->|]; rewrite ?mul0r.
Qed.

Lemma diag_mul (e d : 'I_p -> F) : (\matrix_(a, b) (if a == b then e a else 0) : 'M[F]_p) *m (\matrix_(a, b) (if a == b then d a else 0)) =
  \matrix_(a, b) (if a == b then e a * d a else 0).
Proof.
apply/matrixP => a b. rewrite [LHS]mxE (bigD1 a) //= !mxE eqxx big1 => [|c /negbTE nc]; last by rewrite mxE eq_sym nc mul0r.
by rewrite addr0; case: eqP => // _; rewrite mulr0.
Qed.

Lemma aug_normal x w l d : xtw (aug_x x d) (aug_w w l) *m aug_x x d =
  xtw x w *m x + \matrix_(a, b) (if a == b then d a * l * d a else 0).
Proof. by rewrite aug_xtw /aug_x mul_row_col diag_mul. Qed.
Lemma aug_rhs x y w l d : xtw (aug_x x d) (aug_w w l) *m aug_y y = xtw x w *m y.
Proof. by rewrite aug_xtw /aug_y mul_row_col mulmx0 addr0. Qed.

Definition pen (x : 'M[F]_(n, p)) (y w : 'cV[F]_n) (l : F) (d : 'I_p -> F) (b : 'cV[F]_p) : F :=
  wrss x y w b + l * \sum_a d a ^+ 2 * b a ord0 ^+ 2.
Lemma aug_minimal (x : 'M[F]_(n, p)) (y w : 'cV[F]_n) (l : F) (d : 'I_p -> F) (b : 'cV[F]_p) (K : 'M[F]_p) : (forall j, 0 <= w j ord0) -> 0 <= l ->
  K *m (xtw x w *m x + \matrix_(a, c) (if a == c then d a * l * d a else 0)) = 1%:M ->
  b = K *m (xtw x w *m y) ->
  forall b', (pen x y w l d b <= pen x y w l d b') /\ (pen x y w l d b' = pen x y w l d b -> b' = b).
Proof.
move=> w0 l0 EK Eb.
pose A := xtw (aug_x x d) (aug_w w l) *m aug_x x d.
pose inv' := fun M : 'M[F]_p => if M == A then Some K else None.
have C : inverse_contract inv'.
  by move=> M B; rewrite /inv'; case: eqP => [->|] // [<-]; rewrite /A aug_normal EK.
have w0' j : 0 <= aug_w w l j ord0.
  rewrite /aug_w. case: (splitP j) => k Hk.
  - have -> : j = lshift p k by apply: val_inj. by rewrite col_mxEu.
  - have -> : j = rshift n k by apply: val_inj. by rewrite col_mxEd mxE.
have L : local inv' (aug_x x d) (aug_y y) (aug_w w l) = Some b.
  by rewrite /local /inv' eqxx aug_rhs Eb.
have := local_minimal C w0' L. rewrite /only_minimiser => H b'. have := H b'. by rewrite !aug_wrss.
Qed.

Lemma Xsd_sq (x : 'M[F]_(n, p)) (w : 'cV[F]_n) a : exact_roots sq x w -> Xsd sq x a != 0 -> Xsd sq x a ^+ 2 = penalty_scale x a \/ (Xsd sq x a = sq 0 /\ (n <= 1)%N).
Proof.
move=> [_ [_ R]]. rewrite /Xsd /penalty_scale. case: (nat_of_ord a == 0%N) => [_|]; first by left; rewrite expr1n.
rewrite /stddev. have := R a. rewrite /variance. case: ifP => [L _ nz|L E nz]; first by right.
left. rewrite (_ : _ / _ = sample_variance (col a x)) //.
rewrite /sample_variance. congr (_ / _). case: (n) L => [|m] //= _. by rewrite -[m.+1]addn1 natrD addrK.
Qed.

Lemma ridge_main (x : 'M[F]_(n, p)) (y w : 'cV[F]_n) (lambda : F) (b : 'cV[F]_p) : (1 < n)%N -> exact_roots sq x w -> 0 <= lambda ->
  ridgelm inv sq x y w lambda = Ok (Some b) ->
  ridge_minimiser x y w lambda b.
Proof.
move=> n1 R l0. rewrite /ridgelm. case: (p <= 1)%N => //.
case G: (_ || _ || _) => //. move: G => /negbT; rewrite !negb_or => /andP [/andP [W Y] X].
have w0 j : 0 <= w j ord0 by rewrite leNgt; apply: contra W => H; apply/existsP; exists j.
set d := Xsd sq x. set yw := \col_j _ in Y *. set ysd := stddev sq yw in Y *.
have d0 a : d a != 0 by apply: contra X => H; apply/existsP; exists a.
set Xw := \matrix_(j, a) (x j a * _). set Xws := \matrix_(j, a) (Xw j a / d a). set yws := \col_j (yw j ord0 / ysd).
case E: (inv _) => [B|] // [Eb].
have SQ j : sq (w j ord0) * sq (w j ord0) = w j ord0 by rewrite -expr2 (proj1 (proj2 R)).
pose DI : 'M[F]_p := \matrix_(a, c) (if a == c then (d a)^-1 else 0).
pose DD : 'M[F]_p := \matrix_(a, c) (if a == c then d a else 0).
have DDI : DD *m DI = 1%:M.
  by rewrite diag_mul; apply/matrixP => a c; rewrite !mxE; case: eqP => // _; rewrite divff.
have DID : DI *m DD = 1%:M by apply: mulmx1C.
have E1 : Xws^T *m Xws = DI *m (xtw x w *m x) *m DI.
  apply/matrixP => a c. rewrite [LHS]mxE [RHS]mxE (bigD1 c) //= [DI c c]mxE eqxx [X in _ = _ + X]big1 => [|e /negbTE ne]; last by rewrite [DI e c]mxE ne mulr0.
  rewrite addr0 [(DI *m _) _ _]mxE (bigD1 a) //= [DI a a]mxE eqxx [X in _ = (_ + X) * _]big1 => [|e /negbTE ne]; last by rewrite [DI a e]mxE eq_sym ne mul0r.
  rewrite addr0 [(xtw x w *m x) _ _]mxE mulr_sumr mulr_suml. apply: eq_bigr => j _.
  rewrite xtw_entry -[w j ord0 in RHS]SQ. rewrite [Xws^T a j]mxE [Xws j a]mxE [Xws j c]mxE [Xw j a]mxE [Xw j c]mxE.
  by gring.
have E2 : ysd *: (Xws^T *m yws) = DI *m (xtw x w *m y).
  apply/colP => a. rewrite [LHS]mxE [RHS]mxE (bigD1 a) //= [DI a a]mxE eqxx [X in _ = _ + X]big1 => [|e /negbTE ne]; last by rewrite [DI a e]mxE eq_sym ne mul0r.
  rewrite addr0 [(Xws^T *m _) _ _]mxE [(xtw x w *m y) _ _]mxE !mulr_sumr. apply: eq_bigr => j _.
  rewrite xtw_entry -[w j ord0 in RHS]SQ [Xws^T a j]mxE [Xws j a]mxE [Xw j a]mxE [yws j ord0]mxE [yw j ord0]mxE.
  rewrite [ysd * _]mulrC -!mulrA. rewrite [ysd^-1 * ysd]mulVf // mulr1. by gring.
have Eb2 : b = (DI *m B *m DI) *m (xtw x w *m y).
  rewrite -Eb -!mulmxA -E2 -scalemxAr -scalemxAr. apply/colP => a.
  rewrite [LHS]mxE [RHS]mxE [(DI *m _) _ _]mxE (bigD1 a) //= [DI a a]mxE eqxx [X in _ = _ * (_ + X)]big1 => [|e /negbTE ne]; last by rewrite [DI a e]mxE eq_sym ne mul0r.
  by rewrite addr0; gring.
have K1 : (DI *m B *m DI) *m (xtw x w *m x + \matrix_(a, c) (if a == c then d a * lambda * d a else 0)) = 1%:M.
  have EB := contract E. rewrite E1 in EB.
  have E3 : \matrix_(a, c) (if a == c then d a * lambda * d a else 0) = DD *m (lambda *: 1%:M) *m DD.
    rewrite -scalemxAr mulmx1 -scalemxAl diag_mul. apply/matrixP => a c. rewrite !mxE. case: eqP => _; last by rewrite mulr0.
    by rewrite mulrAC mulrC.
  have E4 : xtw x w *m x + DD *m (lambda *: 1%:M) *m DD = DD *m (DI *m (xtw x w *m x) *m DI + lambda *: 1%:M) *m DD.
    by rewrite mulmxDr mulmxDl !mulmxA DDI mul1mx -[_ *m DI *m DD]mulmxA DID mulmx1.
  rewrite E3 E4. set N := (_ + _ : 'M[F]_p) in EB *.
  rewrite !mulmxA. rewrite -[_ *m DI *m DD]mulmxA DID mulmx1. by rewrite -[DI *m B *m N]mulmxA EB mulmx1.
have PS a : penalty_scale x a = d a ^+ 2.
  case: (Xsd_sq R (d0 a)) => [<-|[_ L]] //. by rewrite leqNgt n1 in L.
have PP b' : penalised x y w lambda b' = pen x y w lambda d b'.
  by rewrite /penalised /pen; congr (_ + _ * _); apply: eq_bigr => a _; rewrite PS.
move=> b'. rewrite !PP. exact: (aug_minimal w0 l0 K1 Eb2 b').
Qed.

Lemma ridge_zero (x : 'M[F]_(n, p)) (y w : 'cV[F]_n) (b : 'cV[F]_p) : (1 < n)%N -> exact_roots sq x w ->
  ridgelm inv sq x y w 0 = Ok (Some b) -> only_minimiser x y w b.
Proof.
move=> n1 R E b'. have [H1 H2] := ridge_main n1 R (lexx 0) E b'.
move: H1 H2. by rewrite /penalised !mul0r !addr0.
Qed.

(** ** The loop *)
Lemma lc_loop_shift (x : 'M[F]_(n, p)) (y : 'cV[F]_n) (W : 'I_n -> 'cV[F]_n) (lam : 'I_n -> F) stop idx : forall bt t1 t2,
  loop (lc_step inv sq x y W lam) stop idx (LC bt t1 t2) =
  match loop (lc_step inv sq x y W lam) stop idx (LC bt 0 0) with
  | Ok (s, b) => Ok (LC (lc_betas s) (t1 + lc_trS s) (t2 + lc_trStS s), b)
  | Throw => Throw
  | UB => UB
  end.
Proof.
elim: idx => [|i idx IH] bt t1 t2 /=; first by rewrite !addr0.
case: (stop i) => /=; first by rewrite !addr0.
rewrite /lc_step /lc_row. case: (ridgelm _ _ _ _ _ _) => [b||] //. case: (inv _) => [B|] //=.
rewrite (IH _ (t1 + _)) (IH _ (0 + _)). case: (loop _ _ _ _) => [[s b0]||] //=.
by rewrite !add0r !addrA.
Qed.

Lemma lc_fit_shift (x : 'M[F]_(n, p)) (y : 'cV[F]_n) (W : 'I_n -> 'cV[F]_n) (lam : 'I_n -> F) stop (t : F * F) :
  lc_fit inv sq t x y W lam stop =
  match lc_fit inv sq (0, 0) x y W lam stop with
  | Ok (s, b) => Ok (LC (lc_betas s) (t.1 + lc_trS s) (t.2 + lc_trStS s), b)
  | Throw => Throw
  | UB => UB
  end.
Proof. exact: lc_loop_shift. Qed.

Lemma lc_second (x : 'M[F]_(n, p)) (y : 'cV[F]_n) (W : 'I_n -> 'cV[F]_n) (lam : 'I_n -> F) stop (t : F * F) r b : lc_fit inv sq t x y W lam stop = Ok (r, b) ->
  exists r', lc_fit inv sq (lc_trS r, lc_trStS r) x y W lam stop = Ok (r', b) /\
    lc_betas r' = lc_betas r /\
    lc_trS r' - lc_trS r = lc_trS r - t.1 /\ lc_trStS r' - lc_trStS r = lc_trStS r - t.2.
Proof.
rewrite lc_fit_shift [X in _ -> exists r', X = _ /\ _]lc_fit_shift.
case: (lc_fit _ _ (0, 0) _ _ _ _ _) => [[s c]||] // [<- <-]. eexists; split; first by reflexivity.
rewrite /=. split=> //. by split; rewrite addrAC subrr add0r addrAC subrr add0r.
Qed.

Lemma lc_loop_desc (x : 'M[F]_(n, p)) (y : 'cV[F]_n) (W : 'I_n -> 'cV[F]_n) (lam : 'I_n -> F) idx : forall s0 s b, uniq idx ->
  loop (lc_step inv sq x y W lam) (fun _ => false) idx s0 = Ok (s, b) ->
  [/\ b = false,
      forall i, i \in idx -> ridgelm inv sq x y (W i) (lam i) = Ok (lc_betas s i),
      forall i, i \notin idx -> lc_betas s i = lc_betas s0 i &
      exists B : 'I_n -> 'M[F]_p,
        [/\ forall i, i \in idx -> inv ((x1w x (W i))^T *m x) = Some (B i),
            lc_trS s = lc_trS s0 + \sum_(i <- idx) hat_row x (W i) i (B i) ord0 i &
            lc_trStS s = lc_trStS s0 + \sum_(i <- idx) \sum_j hat_row x (W i) i (B i) ord0 j * hat_row x (W i) i (B i) ord0 j]].
Proof.
elim: idx => [|i idx IH] s0 s b /=.
  move=> _ [<- <-]; split=> //; exists (fun=> 0); split=> //; by rewrite big_nil addr0.
move=> /andP [ni U]. rewrite {1}/lc_step /lc_row. case R: (ridgelm _ _ _ _ _ _) => [bi||] //. case E: (inv _) => [Bi|] //.
move=> /(IH _ _ _ U) [-> H1 H2 [B [H3 H4 H5]]]. split=> //.
- move=> j. rewrite inE => /orP [/eqP ->|]; last exact: H1. by rewrite R H2 //= eqxx.
- move=> j. rewrite inE negb_or => /andP [/negbTE nj nj']. by rewrite H2 //= nj.
- exists (fun j => if j == i then Bi else B j). split.
  + move=> j. rewrite inE. case: eqP => [-> _|_ /=]; [exact: E|exact: H3].
  + rewrite H4 /= big_cons eqxx addrA. congr (_ + _). rewrite !big_seq. apply: eq_bigr => j J.
    case: eqP => // ej; by rewrite -ej J in ni.
  + rewrite H5 /= big_cons eqxx addrA. congr (_ + _). rewrite !big_seq. apply: eq_bigr => j J.
    case: eqP => // ej; by rewrite -ej J in ni.
Qed.

Lemma lc_fit_desc (x : 'M[F]_(n, p)) (y : 'cV[F]_n) (W : 'I_n -> 'cV[F]_n) (lam : 'I_n -> F) t s b : lc_fit inv sq t x y W lam (fun _ => false) = Ok (s, b) ->
  [/\ b = false,
      forall i, ridgelm inv sq x y (W i) (lam i) = Ok (lc_betas s i) &
      exists B : 'I_n -> 'M[F]_p,
        [/\ forall i, inv ((x1w x (W i))^T *m x) = Some (B i),
            lc_trS s = t.1 + \sum_i hat_row x (W i) i (B i) ord0 i &
            lc_trStS s = t.2 + \sum_i \sum_j hat_row x (W i) i (B i) ord0 j * hat_row x (W i) i (B i) ord0 j]].
Proof.
move=> /(lc_loop_desc (enum_uniq _)) [Eb H1 _ [B [H2 H3 H4]]]. split=> //.
- by move=> i; apply: H1; rewrite mem_enum.
- exists B. split.
  + by move=> i; apply: H2; rewrite mem_enum.
  + by rewrite H3 /= big_enum.
  + by rewrite H4 /= big_enum.
Qed.

Lemma lc_coefficients (x : 'M[F]_(n, p)) (y : 'cV[F]_n) (W : 'I_n -> 'cV[F]_n) (lam : 'I_n -> F) t s b : (1 < n)%N -> (forall i, exact_roots sq x (W i)) -> (forall i, 0 <= lam i) ->
  lc_fit inv sq t x y W lam (fun _ => false) = Ok (s, b) ->
  forall i bi, lc_betas s i = Some bi -> ridge_minimiser x y (W i) (lam i) bi.
Proof.
move=> n1 R l0 /lc_fit_desc [_ H _] i bi Ei. apply: (ridge_main n1 (R i) (l0 i)). by rewrite H Ei.
Qed.

Lemma x1w_xtw (x : 'M[F]_(n, p)) w : (x1w x w)^T = xtw x w.
Proof. by apply/matrixP => a j; rewrite xtw_entry !mxE. Qed.

Lemma ridgelm_nonneg (x : 'M[F]_(n, p)) (y w : 'cV[F]_n) (l : F) (b : 'cV[F]_p) : ridgelm inv sq x y w l = Ok (Some b) -> forall j, 0 <= w j ord0.
Proof.
rewrite /ridgelm. case: (p <= 1)%N => //. case G: (_ || _ || _) => // _.
move: G => /negbT; rewrite !negb_or => /andP [/andP [W _] _] j.
by rewrite leNgt; apply: contra W => H; apply/existsP; exists j.
Qed.

Lemma lc_hat (x : 'M[F]_(n, p)) (W : 'I_n -> 'cV[F]_n) : (1 < n)%N -> (forall i, exact_roots sq x (W i)) -> (forall i, W i i ord0 = 1) ->
  exists S : 'M[F]_n, forall y s b, lc_fit inv sq (0, 0) x y W (fun _ => 0) (fun _ => false) = Ok (s, b) ->
    (forall i bi, lc_betas s i = Some bi -> (x *m bi) i ord0 = (S *m y) i ord0) /\
    lc_trS s = \tr S /\ lc_trStS s = \tr (S^T *m S).
Proof.
move=> n1 R one.
pose S : 'M[F]_n := \matrix_(i, j) (if inv ((x1w x (W i))^T *m x) is Some B then hat_row x (W i) i B ord0 j else 0).
exists S. move=> y s b E. have [_ H1 [B [H2 H3 H4]]] := lc_fit_desc E.
have SE i j : S i j = hat_row x (W i) i (B i) ord0 j by rewrite [LHS]mxE H2. split; [|split].
- move=> i bi Ei. have Eb := H1 i. rewrite Ei in Eb.
  have M := ridge_zero n1 (R i) Eb.
  have L : local inv x y (W i) = Some (B i *m (xtw x (W i) *m y)) by rewrite /local -x1w_xtw H2.
  have M' := local_minimal contract (ridgelm_nonneg Eb) L.
  have -> : bi = B i *m (xtw x (W i) *m y).
    apply: (proj2 (M' bi)). apply/eqP. by rewrite eq_le (proj1 (M _)) (proj1 (M' _)).
  transitivity ((hat_row x (W i) i (B i) *m y) ord0 ord0).
    rewrite /hat_row x1w_xtw -!mulmxA. rewrite [LHS]mxE [RHS]mxE. apply: eq_bigr => a _.
    by rewrite [row _ _ _ _]mxE [x1w _ _ _ _]mxE one mulr1.
  rewrite [LHS]mxE [RHS]mxE. apply: eq_bigr => j _. by rewrite SE.
- rewrite H3 /= add0r /mxtrace. apply: eq_bigr => i _. by rewrite SE.
- rewrite H4 /= add0r mxtrace_mulC /mxtrace. apply: eq_bigr => i _. rewrite [RHS]mxE. apply: eq_bigr => j _.
  by rewrite [(_^T) _ _]mxE SE.
Qed.

(** ** Cross-validation *)
Lemma without_zero (i : 'I_n) (x : 'M[F]_(n, p)) (y w : 'cV[F]_n) l b :
  penalised x y (\col_j (if j == i then 0 else w j ord0)) l b = penalised_without i x y w l b.
Proof.
rewrite /penalised /penalised_without /wrss. congr (_ + _). rewrite (bigD1 i) //= mxE eqxx mul0r add0r.
by apply: eq_bigr => j /negbTE nj; rewrite mxE nj.
Qed.

Lemma cv_roots (x : 'M[F]_(n, p)) (w : 'cV[F]_n) i : exact_roots sq x w -> exact_roots sq x (\col_j (if j == i then 0 else w j ord0)).
Proof.
move=> [R0 [R1 R2]]; split=> //; split=> // j. rewrite mxE. case: eqP => [_ _|_]; [by rewrite R0 expr2 mul0r|exact: R1].
Qed.

Lemma lc_cv_main (x : 'M[F]_(n, p)) (y : 'cV[F]_n) (W : 'I_n -> 'cV[F]_n) (lam : 'I_n -> F) v : (1 < n)%N -> (forall i, exact_roots sq x (W i)) -> (forall i, 0 <= lam i) ->
  lc_cv inv sq x y W lam = Ok (Some v) ->
  exists b : 'I_n -> 'cV[F]_p,
    (v = \sum_i (y i ord0 - (x *m b i) i ord0) ^+ 2) /\
    forall i, ridge_minimiser_without i x y (W i) (lam i) (b i).
Proof.
move=> n1 R l0. rewrite /lc_cv => E.
suff [b [H1 H2]] : exists b : 'I_n -> 'cV[F]_p,
    (v = \sum_(i <- enum 'I_n) (y i ord0 - (x *m b i) i ord0) ^+ 2) /\
    forall i, i \in enum 'I_n -> ridge_minimiser_without i x y (W i) (lam i) (b i).
  exists b. split; first by rewrite H1 big_enum. by move=> i; apply: H2; rewrite mem_enum.
have U : uniq (enum 'I_n) by apply: enum_uniq.
elim: (enum 'I_n) U v E => [|i idx IH] /= U v.
  by case=> <-; exists (fun=> 0); rewrite big_nil.
move: U => /andP [ni U]. case Er: (ridgelm _ _ _ _ _ _) => [[bi|]||] //; last by case: (lc_cv_loop _ _ _ _ _ _ _).
case Ec: (lc_cv_loop _ _ _ _ _ _ _) => [[v'|]||] // [Ev].
have [b [H1 H2]] := IH U _ Ec.
exists (fun j => if j == i then bi else b j). split.
- rewrite big_cons eqxx -Ev H1. congr (_ + _).
  + rewrite expr2. congr (_ * _); (congr (_ - _); rewrite mxE; apply: eq_bigr => a _; by rewrite mulrC).
  + rewrite !big_seq. apply: eq_bigr => j J. case: eqP => // ej; by rewrite -ej J in ni.
- move=> j. rewrite inE. case: eqP => [-> _|_ /= J]; last exact: H2.
  move=> b'. rewrite -!without_zero. exact: (ridge_main n1 (cv_roots i (R i)) (l0 i) Er b').
Qed.

(** ** OpenMP *)
Lemma row_cases (x : 'M[F]_(n, p)) (y : 'cV[F]_n) (W : 'I_n -> 'cV[F]_n) (lam : 'I_n -> F) i :
  (exists v, lc_row inv sq x y W lam i = Ok v) \/ lc_row inv sq x y W lam i = Throw.
Proof.
rewrite /lc_row /ridgelm. case: ifP => _; first by right. case: ifP => _.
  case: (inv _) => [B|]; [by left; eexists|by right].
case: (inv _) => [B|]; last by right. case: (inv _) => [B'|]; [by left; eexists|by right].
Qed.
Lemma rows_ok (x : 'M[F]_(n, p)) (y : 'cV[F]_n) (W : 'I_n -> 'cV[F]_n) (lam : 'I_n -> F) :
  (exists R : 'I_n -> option 'cV[F]_p * 'rV[F]_n, forall i, lc_row inv sq x y W lam i = Ok (R i)) \/
  exists i, lc_row inv sq x y W lam i = Throw.
Proof.
case: (pickP (fun i => if lc_row inv sq x y W lam i is Throw then true else false)) => [i|H].
  by case E: (lc_row _ _ _ _ _ _ _) => // _; right; exists i.
left. exists (fun i => if lc_row inv sq x y W lam i is Ok v then v else (None, 0)) => i.
have := H i. case: (row_cases x y W lam i) => [[v ->]|->] //.
Qed.
Lemma loop_ok (m : nat) (S T : Type) (row : 'I_m -> outcome T) (step : 'I_m -> S -> outcome S) (upd : 'I_m -> T -> S -> S) idx :
  (forall i st, step i st = match row i with Ok v => Ok (upd i v st) | Throw => Throw | UB => UB end) ->
  forall R : 'I_m -> T, (forall i, row i = Ok (R i)) ->
  forall st, loop step (fun _ => false) idx st = Ok (foldl (fun s i => upd i (R i) s) st idx, false).
Proof. move=> H R HR. elim: idx => [|i idx IH] st //=. by rewrite H HR IH. Qed.
Lemma loop_throw (m : nat) (S T : Type) (row : 'I_m -> outcome T) (step : 'I_m -> S -> outcome S) (upd : 'I_m -> T -> S -> S) idx i :
  (forall i st, step i st = match row i with Ok v => Ok (upd i v st) | Throw => Throw | UB => UB end) ->
  (forall i, row i <> UB) -> i \in idx -> row i = Throw ->
  forall st, loop step (fun _ => false) idx st = Throw.
Proof.
move=> H U. elim: idx => [|j idx IH] //=. rewrite inE => + E st. rewrite H. case: eqP => [<- _|_ /= J]; first by rewrite E.
case Ej: (row j) => [v||] //; [by rewrite (IH J E)|by have := U j].
Qed.

Lemma lc_omp (t : F * F) (k : nat) (thread : 'I_n -> 'I_k) (order : seq 'I_n)
    (x : 'M[F]_(n, p)) (y : 'cV[F]_n) (W : 'I_n -> 'cV[F]_n) (lam : 'I_n -> F) : perm_eq order (enum 'I_n) ->
  match lc_fit inv sq (0, 0) x y W lam (fun _ => false), lc_fit_omp inv sq t thread order x y W lam with
  | Ok (s, _), Ok s' => (forall i, lc_betas s' i = lc_betas s i) /\ lc_trS s' = lc_trS s /\ lc_trStS s' = lc_trStS s
  | Throw, Throw => True
  | _, _ => False
  end.
Proof.
move=> PE.
pose u1 (i : 'I_n) (v : option 'cV[F]_p * 'rV[F]_n) (st : lc_state F n p) : lc_state F n p :=
  LC (fun j => if j == i then v.1 else lc_betas st j) (lc_trS st + v.2 ord0 i) (lc_trStS st + \sum_j v.2 ord0 j * v.2 ord0 j).
pose u2 (i : 'I_n) (v : option 'cV[F]_p * 'rV[F]_n) (st : ('I_n -> option 'cV[F]_p) * ('I_k -> F) * ('I_k -> F)) :=
  ((fun j => if j == i then v.1 else st.1.1 j),
   (fun h => if h == thread i then st.1.2 h + v.2 ord0 i else st.1.2 h),
   (fun h => if h == thread i then st.2 h + \sum_j v.2 ord0 j * v.2 ord0 j else st.2 h)).
have S1 i st : lc_step inv sq x y W lam i st = match lc_row inv sq x y W lam i with
    | Ok v => Ok (u1 i v st) | Throw => Throw | UB => UB end.
  by rewrite /lc_step; case: (lc_row _ _ _ _ _ _ _) => [[b hr]||].
have S2 i st : omp_step inv sq thread x y W lam i st = match lc_row inv sq x y W lam i with
    | Ok v => Ok (u2 i v st) | Throw => Throw | UB => UB end.
  by rewrite /omp_step; case: (lc_row _ _ _ _ _ _ _) => [[b hr]||] //; case: st => [[bt s0] s1].
have U i : lc_row inv sq x y W lam i <> UB by case: (row_cases x y W lam i) => [[v ->]|->].
have M i : i \in order by rewrite (perm_mem PE) mem_enum.
case: (rows_ok x y W lam) => [[R HR]|[i E]]; last first.
  rewrite /lc_fit /lc_fit_omp (loop_throw S1 U (mem_enum predT i) E).
  by rewrite (loop_throw S2 U (M i) E).
rewrite /lc_fit /lc_fit_omp (loop_ok _ S1 HR) (loop_ok _ S2 HR).
pose f1 s i := u1 i (R i) s. pose f2 s i := u2 i (R i) s. rewrite -/f1 -/f2.
have D1 idx : forall st, uniq idx -> let s := foldl f1 st idx in
  (forall i, lc_betas s i = if i \in idx then (R i).1 else lc_betas st i) /\
  lc_trS s = lc_trS st + \sum_(i <- idx) (R i).2 ord0 i /\
  lc_trStS s = lc_trStS st + \sum_(i <- idx) \sum_j (R i).2 ord0 j * (R i).2 ord0 j.
  elim: idx => [|i idx IH] st /=; first by rewrite !big_nil !addr0.
  move=> /andP [ni Uq]. have [H1 [H2 H3]] := IH (f1 st i) Uq. rewrite H2 H3 !big_cons /= !addrA. split=> // j.
  rewrite H1 /= inE. case: eqP => [->|] //=; by rewrite (negbTE ni).
have D2 idx : forall st, uniq idx -> let s := foldl f2 st idx in
  (forall i, s.1.1 i = if i \in idx then (R i).1 else st.1.1 i) /\
  \sum_h s.1.2 h = \sum_h st.1.2 h + \sum_(i <- idx) (R i).2 ord0 i /\
  \sum_h s.2 h = \sum_h st.2 h + \sum_(i <- idx) \sum_j (R i).2 ord0 j * (R i).2 ord0 j.
  elim: idx => [|i idx IH] st /=; first by rewrite !big_nil !addr0.
  move=> /andP [ni Uq]. have [H1 [H2 H3]] := IH (f2 st i) Uq. rewrite H2 H3 !big_cons /=. split; last split.
  - move=> j. rewrite H1 /= inE. case: eqP => [->|] //=; by rewrite (negbTE ni).
  - rewrite addrA. congr (_ + _). rewrite (bigD1 (thread i)) //= [X in _ = X + _](bigD1 (thread i)) //= eqxx.
    rewrite addrAC. congr (_ + _ + _). by apply: eq_bigr => h /negbTE ->.
  - rewrite addrA. congr (_ + _). rewrite (bigD1 (thread i)) //= [X in _ = X + _](bigD1 (thread i)) //= eqxx.
    rewrite addrAC. congr (_ + _ + _). by apply: eq_bigr => h /negbTE ->.
have [A1 [A2 A3]] := D1 (enum 'I_n) (LC (fun _ => Some 0) 0 0) (enum_uniq _).
have Uo : uniq order by rewrite (perm_uniq PE) enum_uniq.
have [B1 [B2 B3]] := D2 order ((fun _ => Some 0), (fun _ => 0), (fun _ => 0)) Uo.
move: B1 B2 B3. case: (foldl f2 _ _) => [[bt s0] s1] /= B1 B2 B3.
split; last split.
- by move=> i; rewrite A1 B1 M mem_enum.
- by rewrite A2 B2 /= big1 // (perm_big _ PE).
- by rewrite A3 B3 /= big1 // (perm_big _ PE).
Qed.

(** ** Prediction *)
Lemma predict_omp_throws (x : 'M[F]_(n, p)) (y w : 'cV[F]_n) (l : F) : predict_omp_step inv sq x y w l = Throw \/ predict_omp_step inv sq x y w l = UB.
Proof.
rewrite /predict_omp_step. case E: (ridgelm _ _ _ _ _ _) => [b||]; [|by left|by right]. left.
rewrite /assign_row. case: eqP => // H. exfalso. move: E. rewrite /ridgelm. case: ifP => // P1 _.
move: H P1. case: (n) => [|m]; first by rewrite mul0n add0n => ->.
rewrite mulSn -addnA => /eqP. by rewrite -[X in X == _]addn0 eqn_add2l addn1.
Qed.
Lemma ridgelm_not_ub (x : 'M[F]_(n, p)) (y w : 'cV[F]_n) (l : F) : ridgelm inv sq x y w l <> UB.
Proof. rewrite /ridgelm. case: ifP => // _. case: ifP => // _. by case: (inv _). Qed.
Lemma predict_omp_throw (x : 'M[F]_(n, p)) (y w : 'cV[F]_n) (l : F) : predict_omp_step inv sq x y w l = Throw.
Proof.
case: (predict_omp_throws x y w l) => // H. move: H. rewrite /predict_omp_step.
case E: (ridgelm _ _ _ _ _ _) => [b||] //. - by rewrite /assign_row; case: ifP.
by case: (ridgelm_not_ub E).
Qed.
End P.
