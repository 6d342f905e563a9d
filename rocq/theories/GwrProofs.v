From mathcomp Require Import all_ssreflect all_algebra ring.
From Verif Require Import Outcome GwrModel GwrSpec.
Set Implicit Arguments. Unset Strict Implicit. Unset Printing Implicit Defensive.
Import Order.TTheory GRing.Theory Num.Theory.
Local Open Scope ring_scope.

(** [ring] on matrix entries taken as opaque scalars *)
Ltac gring := repeat match goal with
  |- context[@fun_of_matrix ?R ?m ?n ?A ?i ?j] => move: (@fun_of_matrix R m n A i j) => ? end; ring.

Lemma exact_inv_contract (F : realFieldType) p : inverse_contract (@exact_inv F p).
Proof. by move=> A B; rewrite /exact_inv; case: ifP => // uA [<-]; rewrite mulVmx. Qed.

Section G.
Variables (F : realFieldType) (n p : nat).
Implicit Types (x : 'M[F]_(n, p)) (y w : 'cV[F]_n) (W : 'I_n -> 'cV[F]_n) (b : 'cV[F]_p).

Lemma set_col_same m (M : 'M[F]_(p, m)) i v : col i (set_col M i v) = v.
Proof. by apply/colP => a; rewrite !mxE eqxx. Qed.
Lemma set_col_other m (M : 'M[F]_(p, m)) i j v : j != i -> col j (set_col M i v) = col j M.
Proof. by move=> ne; apply/colP => a; rewrite !mxE (negbTE ne). Qed.

Lemma xtw_entry x w a j : xtw x w a j = x j a * w j ord0.
Proof. by rewrite mxE. Qed.

(** xtw = X^T diag(w) *)
Lemma xtwE x w : xtw x w = x^T *m diag_mx (w^T).
Proof. by apply/matrixP => a j; rewrite mul_mx_diag !mxE. Qed.

(** ** The loop without stopping *)
Variable inv : 'M[F]_p -> option 'M[F]_p.

Definition Bof x W i : 'M[F]_p := odflt 0 (inv (xtw x (W i) *m x)).
Definition cof x W i := Bof x W i *m xtw x (W i).
Definition sof x W i := row i x *m cof x W i.
Definition okat x W i : bool := inv (xtw x (W i) *m x) != None.
Definition nostop : 'I_n -> bool := fun _ => false.

Lemma in_range lo hi i : (i \in range n lo hi) = (lo <= i < hi)%N.
Proof. by rewrite mem_filter mem_enum andbT. Qed.
Lemma range_uniq lo hi : uniq (range n lo hi).
Proof. by rewrite filter_uniq // enum_uniq. Qed.
Lemma range_full : range n 0 n = enum 'I_n.
Proof. by apply/all_filterP/allP => i _ /=; rewrite ltn_ord. Qed.

Definition qof x W i : 'cV[F]_n :=
  \col_j ((- (sof x W i)^T + \col_k (if k == i then 1 else 0)) j ord0 ^+ 2).


Record describes (storeS storeC : bool) (lo : nat) x y W (idx : seq 'I_n) (s0 s : fitted_model F n p) : Prop := Desc {
  d_ok : all (okat x W) idx;
  d_betas : forall i, i \in idx -> col i (betas s) = Bof x W i *m (xtw x (W i) *m y);
  d_betas0 : forall i, i \notin idx -> col i (betas s) = col i (betas s0);
  d_se : forall i, i \in idx -> col i (se2 s) = \col_a \sum_j cof x W i a j ^+ 2;
  d_se0 : forall i, i \notin idx -> col i (se2 s) = col i (se2 s0);
  d_sh0 : shat0 s = shat0 s0 + \sum_(i <- idx) sof x W i ord0 i;
  d_sh1 : shat1 s = shat1 s0 + \sum_(i <- idx) \det (sof x W i *m (sof x W i)^T);
  d_q : qdiag s = qdiag s0 + \sum_(i <- idx) qof x W i;
  d_S : storeS -> (forall i, i \in idx -> (lo <= i)%N) ->
        forall i, i \in idx -> rowS s (i - lo)%N = sof x W i;
  d_S0 : forall k, (forall i, i \in idx -> (if storeS then (i - lo)%N else 0%N) <> k) -> rowS s k = rowS s0 k;
  d_C : storeC -> (forall i, i \in idx -> (lo <= i)%N) ->
        forall i, i \in idx -> sliceC s (i - lo)%N = cof x W i;
  d_C0 : forall k, (forall i, i \in idx -> (if storeC then (i - lo)%N else 0%N) <> k) -> sliceC s k = sliceC s0 k
}.

Lemma sub_neq lo (i j : 'I_n) : (lo <= i)%N -> (lo <= j)%N -> j != i -> (j - lo)%N <> (i - lo)%N.
Proof.
move=> li lj ne E; case/eqP: ne; apply: val_inj => /=.
by rewrite -(subnK lj) E subnK.
Qed.

Lemma fit_loop storeS storeC lo x y W idx : forall s0 s, uniq idx ->
  loop (fit_step inv storeS storeC lo x y W) nostop idx s0 = Ok (s, false) ->
  describes storeS storeC lo x y W idx s0 s.
Proof.
elim: idx => [|i t IH] s0 s /=.
  by move=> _ [<-]; split=> //; rewrite big_nil addr0.
case/andP=> nit ut; rewrite {1}/fit_step.
case E: (inv _) => [B|//] /IH - /(_ ut) [H1 H2 H3 H4 H5 H6 H7 H8 H9 H10 H11 H12].
have EB : Bof x W i = B by rewrite /Bof E.
have Ec : cof x W i = B *m xtw x (W i) by rewrite /cof EB.
have Es : sof x W i = row i x *m (B *m xtw x (W i)) by rewrite /sof Ec.
split.
- by rewrite /= H1 /okat E.
- move=> j; rewrite in_cons => /orP [/eqP->|jt]; last by rewrite H2.
  by rewrite H3 // set_col_same EB.
- by move=> j; rewrite in_cons negb_or => /andP [ne nt]; rewrite H3 //= set_col_other.
- move=> j; rewrite in_cons => /orP [/eqP->|jt]; last by rewrite H4.
  by rewrite H5 // set_col_same Ec; apply/colP => a; rewrite [LHS]mxE [RHS]mxE.
- by move=> j; rewrite in_cons negb_or => /andP [ne nt]; rewrite H5 //= set_col_other.
- by rewrite H6 /= big_cons addrA Es.
- by rewrite H7 /= big_cons addrA Es.
- rewrite H8 /= big_cons addrA; congr (_ + _ + _); apply/colP => j.
  by rewrite /qof Es [LHS]mxE [RHS]mxE expr2.
- move=> sS hlo j; have hl k : k \in t -> (lo <= k)%N by move=> kt; apply: hlo; rewrite in_cons kt orbT.
  rewrite in_cons => /orP [/eqP->|jt]; last exact: H9.
  rewrite H10; first by rewrite /= /set_at sS eqxx Es.
  move=> k kt; rewrite sS; apply: sub_neq; [exact: hlo (mem_head _ _)|exact: hl|].
  by apply: contraNneq nit => <-.
- move=> k Hk; rewrite H10 /=.
    by rewrite /set_at; case: eqP => // kk; case: (Hk i (mem_head _ _)).
  by move=> j jt; apply: Hk; rewrite in_cons jt orbT.
- move=> sS hlo j; have hl k : k \in t -> (lo <= k)%N by move=> kt; apply: hlo; rewrite in_cons kt orbT.
  rewrite in_cons => /orP [/eqP->|jt]; last exact: H11.
  rewrite H12; first by rewrite /= /set_at sS eqxx Ec.
  move=> k kt; rewrite sS; apply: sub_neq; [exact: hlo (mem_head _ _)|exact: hl|].
  by apply: contraNneq nit => <-.
- move=> k Hk; rewrite H12 /=.
    by rewrite /set_at; case: eqP => // kk; case: (Hk i (mem_head _ _)).
  by move=> j jt; apply: Hk; rewrite in_cons jt orbT.
Qed.

Lemma fit_core_desc storeS storeC lo hi x y W s :
  fit_core inv storeS storeC lo hi x y W nostop = Ok (s, false) ->
  describes storeS storeC lo x y W (range n lo hi) (fit0 F n p) s.
Proof. by apply: fit_loop; apply: range_uniq. Qed.

(** The loop succeeds when every inverse does. *)
Lemma fit_total storeS storeC lo hi x y W :
  (forall i : 'I_n, (lo <= i < hi)%N -> inv (xtw x (W i) *m x) <> None) ->
  exists s, fit_core inv storeS storeC lo hi x y W nostop = Ok (s, false).
Proof.
move=> H; rewrite /fit_core.
have {}H : forall i, i \in range n lo hi -> inv (xtw x (W i) *m x) <> None.
  by move=> i; rewrite in_range; apply: H.
elim: (range n lo hi) (fit0 F n p) H => [|i t IH] s0 H /=; first by exists s0.
rewrite {1}/fit_step; case E: (inv _) => [B|]; last by case: (H i (mem_head _ _)).
by apply: IH => j jt; apply: H; rewrite in_cons jt orbT.
Qed.

(** ** Normal equations *)
Hypothesis contract : inverse_contract inv.

Lemma Bof_inv x W i : okat x W i -> Bof x W i *m (xtw x (W i) *m x) = 1%:M.
Proof. rewrite /okat /Bof; case E: (inv _) => [B|//] _; exact: contract E. Qed.

Definition solves x y w b := xtw x w *m (x *m b) = xtw x w *m y.

Lemma unit_of_inv (A B : 'M[F]_p) : B *m A = 1%:M -> A \in unitmx.
Proof. by move=> /mulmx1_unit []. Qed.
Lemma left_is_right (A B : 'M[F]_p) : B *m A = 1%:M -> A *m B = 1%:M.
Proof. exact: mulmx1C. Qed.

Lemma Bof_solves x W i y : okat x W i -> solves x y (W i) (Bof x W i *m (xtw x (W i) *m y)).
Proof.
move=> /Bof_inv /left_is_right E; rewrite /solves mulmxA.
by rewrite mulmxA [_ *m Bof x W i]E mul1mx.
Qed.

Lemma solves_unique x y w b b' (B : 'M[F]_p) : B *m (xtw x w *m x) = 1%:M ->
  solves x y w b -> solves x y w b' -> b' = b.
Proof.
rewrite /solves => EB H H'.
have: B *m (xtw x w *m x) *m b' = B *m (xtw x w *m x) *m b by rewrite -!mulmxA H H'.
by rewrite EB !mul1mx.
Qed.

Lemma solves_orth x y w b (d : 'cV[F]_p) : solves x y w b ->
  \sum_j w j ord0 * (y j ord0 - (x *m b) j ord0) * (x *m d) j ord0 = 0.
Proof.
move=> S.
have E : (d^T *m (xtw x w *m (y - x *m b))) ord0 ord0 = 0.
  by rewrite mulmxBr S subrr mulmx0 mxE.
rewrite -[RHS]E mxE.
have X a : (xtw x w *m (y - x *m b)) a ord0 = \sum_j x j a * w j ord0 * (y j ord0 - (x *m b) j ord0).
  rewrite mxE; apply: eq_bigr => j _; rewrite xtw_entry; congr (_ * _).
  by rewrite [LHS]mxE; congr (_ + _); rewrite [LHS]mxE.
under [RHS]eq_bigr => a do rewrite X mulr_sumr mxE.
rewrite exchange_big /=; apply: eq_bigr => j _.
rewrite [(x *m d) _ _]mxE mulr_sumr; apply: eq_bigr => a _.
by gring.
Qed.

Lemma wrss_expand x y w b b' : solves x y w b ->
  wrss x y w b' = wrss x y w b + \sum_j w j ord0 * ((x *m (b - b')) j ord0) ^+ 2.
Proof.
move=> S; have O := solves_orth (b - b') S.
have T : \sum_j 2%:R * (w j ord0 * (y j ord0 - (x *m b) j ord0) * (x *m (b - b')) j ord0) = 0.
  by rewrite -mulr_sumr O mulr0.
rewrite -[RHS]addr0 -[X in _ = _ + X]T /wrss -!big_split /=.
apply: eq_bigr => j _.
have -> : (x *m b') j ord0 = (x *m b) j ord0 - (x *m (b - b')) j ord0.
  by rewrite mulmxBr [(x *m b - _) _ _]mxE [(- (x *m b')) _ _]mxE; gring.
by gring.
Qed.

Lemma weighted_zero x w (d : 'cV[F]_p) : (forall j, 0 <= w j ord0) ->
  \sum_j w j ord0 * ((x *m d) j ord0) ^+ 2 = 0 -> xtw x w *m (x *m d) = 0.
Proof.
move=> w0 Z.
have P : forall j, true -> w j ord0 * ((x *m d) j ord0) ^+ 2 = 0.
  apply: psumr_eq0P Z => j _; by rewrite mulr_ge0 // sqr_ge0.
apply/colP => a; rewrite mxE [RHS]mxE big1 // => j _; rewrite xtw_entry -mulrA.
move/eqP: (P j isT); rewrite mulf_eq0 sqrf_eq0 => /orP [/eqP->|/eqP->]; by rewrite ?mul0r ?mulr0.
Qed.

Lemma minimal x y W i : okat x W i -> (forall j, 0 <= W i j ord0) ->
  only_minimiser x y (W i) (Bof x W i *m (xtw x (W i) *m y)).
Proof.
move=> ok w0 b'; have S := Bof_solves y ok.
rewrite (wrss_expand b' S); set b := Bof x W i *m _ in S *.
set T := \sum_j _; have T0 : 0 <= T.
  by apply: sumr_ge0 => j _; rewrite mulr_ge0 // sqr_ge0.
split; first by rewrite ler_addl.
move=> E; have {E}T1 : T = 0 by apply: (addrI (wrss x y (W i) b)); rewrite addr0.
have Z := weighted_zero w0 T1.
have: Bof x W i *m (xtw x (W i) *m x) *m (b - b') = 0 by rewrite -!mulmxA Z mulmx0.
by rewrite (Bof_inv ok) mul1mx => /eqP; rewrite subr_eq0 => /eqP.
Qed.

Lemma C43_main storeS storeC lo hi x y W s :
  fit_core inv storeS storeC lo hi x y W nostop = Ok (s, false) ->
  forall i : 'I_n, (lo <= i < hi)%N -> (forall j, 0 <= W i j ord0) ->
  only_minimiser x y (W i) (col i (betas s)).
Proof.
move/fit_core_desc => D i; rewrite -in_range => ir w0.
rewrite (d_betas D ir); apply: minimal => //; exact: (allP (d_ok D)).
Qed.

(** ** C44 *)
Lemma fitted_sof x y W i : row i x *m (Bof x W i *m (xtw x (W i) *m y)) = sof x W i *m y.
Proof. by rewrite /sof /cof !mulmxA. Qed.

Definition Smat x W : 'M[F]_n := \matrix_(i, j) sof x W i ord0 j.
Lemma row_Smat x W i : row i (Smat x W) = sof x W i.
Proof. by apply/rowP => j; rewrite !mxE; congr (_ _ _); rewrite ord1. Qed.

Lemma Fitted_row x (B : 'M[F]_(p, n)) i : Fitted x B i ord0 = (row i x *m col i B) ord0 ord0.
Proof. by rewrite !mxE; apply: eq_bigr => a _; rewrite !mxE. Qed.

Lemma stored_full storeC x y W s :
  fit_core inv true storeC 0 n x y W nostop = Ok (s, false) -> stored s = Smat x W.
Proof.
move/fit_core_desc => D; apply/matrixP => i j; rewrite [LHS]mxE [RHS]mxE.
have ir : i \in range n 0 n by rewrite in_range ltn_ord.
by have := d_S D isT (fun _ _ => leq0n _) ir; rewrite subn0 => ->.
Qed.

Lemma qof_entry x W i j : qof x W i j ord0 = ((1%:M - Smat x W) i j) ^+ 2.
Proof.
rewrite /qof mxE; congr (_ ^+ 2); rewrite !mxE [_ + (- _)]addrC eq_sym.
by case: (i == j).
Qed.

Lemma C44_main storeC x y W s :
  fit_core inv true storeC 0 n x y W nostop = Ok (s, false) ->
  [/\ Fitted x (betas s) = stored s *m y,
      shat0 s = \tr (stored s), shat1 s = \tr ((stored s)^T *m stored s) &
      forall j, qdiag s j ord0 = \sum_i ((1%:M - stored s) i j) ^+ 2].
Proof.
move=> E; have D := fit_core_desc E; rewrite (stored_full E); split.
- apply/colP => i; rewrite Fitted_row (d_betas D) ?in_range ?ltn_ord //.
  by rewrite fitted_sof -row_Smat -row_mul !mxE.
- rewrite (d_sh0 D) /= add0r range_full big_enum /=; apply: eq_bigr => i _; by rewrite [RHS]mxE.
- rewrite (d_sh1 D) /= add0r range_full big_enum /= mxtrace_mulC; apply: eq_bigr => i _.
  rewrite det_mx11 [LHS]mxE [RHS]mxE; apply: eq_bigr => j _.
  by rewrite [_^T _ _]mxE [X in _ = X * _]mxE [X in _ = _ * X]mxE [X in _ = _ * X]mxE.
- move=> j; rewrite (d_q D) /= add0r range_full big_enum /= summxE; apply: eq_bigr => i _.
  exact: qof_entry.
Qed.

(** Everything but the coefficients is independent of y. *)
Lemma C44_indep storeS storeC lo hi x y1 y2 W s1 s2 :
  fit_core inv storeS storeC lo hi x y1 W nostop = Ok (s1, false) ->
  fit_core inv storeS storeC lo hi x y2 W nostop = Ok (s2, false) ->
  [/\ shat0 s1 = shat0 s2, shat1 s1 = shat1 s2, qdiag s1 = qdiag s2, se2 s1 = se2 s2 &
      storeS = true -> forall i : 'I_n, (lo <= i < hi)%N -> rowS s1 (i - lo)%N = rowS s2 (i - lo)%N].
Proof.
move=> /fit_core_desc D1 /fit_core_desc D2; split.
- by rewrite (d_sh0 D1) (d_sh0 D2).
- by rewrite (d_sh1 D1) (d_sh1 D2).
- by rewrite (d_q D1) (d_q D2).
- apply/matrixP => a i; move: (d_se D1 (i := i)) (d_se D2 (i := i)) (d_se0 D1 (i := i)) (d_se0 D2 (i := i)).
  case: (i \in range n lo hi) => H1 H2 H3 H4.
  + have: col i (se2 s1) = col i (se2 s2) by rewrite H1 // H2.
    by move/colP/(_ a); rewrite !mxE.
  + have: col i (se2 s1) = col i (se2 s2) by rewrite H3 // H4.
    by move/colP/(_ a); rewrite !mxE.
- move=> sS i ii; have lo0 k : k \in range n lo hi -> (lo <= k)%N by rewrite in_range => /andP [].
  by rewrite (d_S D1 sS lo0) ?(d_S D2 sS lo0) // in_range.
Qed.

(** ** C45 *)
Lemma okat_y storeS storeC lo hi x y y' W s :
  fit_core inv storeS storeC lo hi x y W nostop = Ok (s, false) ->
  exists s', fit_core inv storeS storeC lo hi x y' W nostop = Ok (s', false).
Proof.
move/fit_core_desc => D; apply: fit_total => i; rewrite -in_range => ir.
by move: (allP (d_ok D) i ir); rewrite /okat; case: (inv _).
Qed.

Lemma col_inj (m : nat) (A B : 'M[F]_(p, m)) : (forall i, col i A = col i B) -> A = B.
Proof. by move=> H; apply/matrixP => a i; move/colP: (H i) => /(_ a); rewrite !mxE. Qed.

Lemma by_cols storeS storeC lo hi x1 x2 y1 y2 W1 W2 s1 s2 (f : 'cV[F]_p -> 'cV[F]_p) : f 0 = 0 ->
  fit_core inv storeS storeC lo hi x1 y1 W1 nostop = Ok (s1, false) ->
  fit_core inv storeS storeC lo hi x2 y2 W2 nostop = Ok (s2, false) ->
  (forall i : 'I_n, (lo <= i < hi)%N -> okat x1 W1 i -> okat x2 W2 i ->
     Bof x2 W2 i *m (xtw x2 (W2 i) *m y2) = f (Bof x1 W1 i *m (xtw x1 (W1 i) *m y1))) ->
  forall i, col i (betas s2) = f (col i (betas s1)).
Proof.
move=> f0 /fit_core_desc D1 /fit_core_desc D2 H i.
case ir: (i \in range n lo hi).
- rewrite (d_betas D1 ir) (d_betas D2 ir) H //; first by rewrite -in_range.
  + exact: (allP (d_ok D1)). 
  + exact: (allP (d_ok D2)).
- rewrite (d_betas0 D1) ?ir // (d_betas0 D2) ?ir //=.
  by rewrite (_ : col i 0 = 0) ?f0 //; apply/colP => a; rewrite !mxE.
Qed.

Lemma C45_linear_main storeS storeC lo hi x y1 y2 W s1 s2 (a b : F) :
  fit_core inv storeS storeC lo hi x y1 W nostop = Ok (s1, false) ->
  fit_core inv storeS storeC lo hi x y2 W nostop = Ok (s2, false) ->
  exists s, fit_core inv storeS storeC lo hi x (a *: y1 + b *: y2) W nostop = Ok (s, false) /\
    betas s = a *: betas s1 + b *: betas s2.
Proof.
move=> E1 E2; have [s E] := okat_y (a *: y1 + b *: y2) E1; exists s; split=> //.
have [[D1 D2] D] := (fit_core_desc E1, fit_core_desc E2, fit_core_desc E).
apply: col_inj => i; rewrite linearD !linearZ /=.
case ir: (i \in range n lo hi).
- by rewrite (d_betas D1 ir) (d_betas D2 ir) (d_betas D ir) !mulmxDr -!scalemxAr.
- rewrite (d_betas0 D1) ?ir // (d_betas0 D2) ?ir // (d_betas0 D) ?ir //=.
  by rewrite linear0 !scaler0 addr0.
Qed.

Lemma C45_exact_main storeS storeC lo hi x (g : 'cV[F]_p) W s :
  fit_core inv storeS storeC lo hi x (x *m g) W nostop = Ok (s, false) ->
  forall i : 'I_n, (lo <= i < hi)%N -> col i (betas s) = g.
Proof.
move/fit_core_desc => D i; rewrite -in_range => ir.
rewrite (d_betas D ir) !mulmxA -[_ *m xtw _ _ *m x]mulmxA Bof_inv ?mul1mx //.
exact: (allP (d_ok D)).
Qed.

(** ** C46 *)
Lemma col_mul q m (A : 'M[F]_(q, p)) (B : 'M[F]_(p, m)) i : col i (A *m B) = A *m col i B.
Proof. by rewrite !colE mulmxA. Qed.

Lemma xtw_mul x w (A : 'M[F]_p) : xtw (x *m A) w = A^T *m xtw x w.
Proof. by rewrite !xtwE trmx_mul mulmxA. Qed.

Lemma left_unique (A B B' : 'M[F]_p) : B *m A = 1%:M -> B' *m A = 1%:M -> B' = B.
Proof. by move=> H /left_is_right H'; rewrite -[B]mulmx1 -H' mulmxA H mul1mx. Qed.

Lemma cof_mul x W i (A : 'M[F]_p) : A \in unitmx -> okat x W i -> okat (x *m A) W i ->
  cof (x *m A) W i = invmx A *m cof x W i.
Proof.
move=> uA ok1 ok2; rewrite /cof xtw_mul.
have -> : Bof (x *m A) W i = invmx A *m Bof x W i *m invmx A^T; last first.
  by rewrite !mulmxA mulmxKV ?unitmx_tr.
apply: (left_unique _ (Bof_inv ok2)).
rewrite xtw_mul !mulmxA mulmxKV ?unitmx_tr //.
rewrite -(mulmxA _ (xtw x (W i)) x) -(mulmxA (invmx A)) Bof_inv // mulmx1.
exact: mulVmx.
Qed.

Lemma sof_mul x W i (A : 'M[F]_p) : A \in unitmx -> okat x W i -> okat (x *m A) W i ->
  sof (x *m A) W i = sof x W i.
Proof. by move=> uA o1 o2; rewrite /sof cof_mul // row_mul !mulmxA mulmxK. Qed.

Lemma beta_cof x y W i : Bof x W i *m (xtw x (W i) *m y) = cof x W i *m y.
Proof. by rewrite mulmxA. Qed.

Lemma C46_main storeS storeC lo hi x y W (A : 'M[F]_p) s s' : A \in unitmx ->
  fit_core inv storeS storeC lo hi x y W nostop = Ok (s, false) ->
  fit_core inv storeS storeC lo hi (x *m A) y W nostop = Ok (s', false) ->
  betas s' = invmx A *m betas s /\ Fitted (x *m A) (betas s') = Fitted x (betas s) /\
  shat0 s' = shat0 s /\ shat1 s' = shat1 s /\ qdiag s' = qdiag s /\
  RSS (x *m A) y (betas s') = RSS x y (betas s).
Proof.
move=> uA E E'; have [D D'] := (fit_core_desc E, fit_core_desc E').
have ok i : i \in range n lo hi -> okat x W i by exact: (allP (d_ok D)).
have ok' i : i \in range n lo hi -> okat (x *m A) W i by exact: (allP (d_ok D')).
have B : betas s' = invmx A *m betas s.
  apply: col_inj => i; rewrite col_mul.
  case ir: (i \in range n lo hi).
  - by rewrite (d_betas D ir) (d_betas D' ir) !beta_cof cof_mul ?ok ?ok' // mulmxA.
  - by rewrite (d_betas0 D) ?ir // (d_betas0 D') ?ir //= linear0 mulmx0.
have Fi : Fitted (x *m A) (betas s') = Fitted x (betas s).
  by apply/colP => i; rewrite !Fitted_row B col_mul row_mul !mulmxA mulmxK.
split=> //; split=> //; split.
  rewrite (d_sh0 D) (d_sh0 D'); congr (_ + _).
  by apply: eq_big_seq => i ir; rewrite sof_mul ?ok ?ok'.
split.
  rewrite (d_sh1 D) (d_sh1 D'); congr (_ + _).
  by apply: eq_big_seq => i ir; rewrite sof_mul ?ok ?ok'.
split; last by rewrite /RSS Fi.
rewrite (d_q D) (d_q D'); congr (_ + _).
by apply: eq_big_seq => i ir; rewrite /qof sof_mul ?ok ?ok'.
Qed.

Lemma C46_hat_main storeC x y W (A : 'M[F]_p) s s' : A \in unitmx ->
  fit_core inv true storeC 0 n x y W nostop = Ok (s, false) ->
  fit_core inv true storeC 0 n (x *m A) y W nostop = Ok (s', false) ->
  stored s' = stored s.
Proof.
move=> uA E E'; rewrite (stored_full E) (stored_full E').
have [D D'] := (fit_core_desc E, fit_core_desc E').
apply/matrixP => i j; rewrite [LHS]mxE [RHS]mxE sof_mul //.
- by apply: (allP (d_ok D)); rewrite in_range ltn_ord.
- by apply: (allP (d_ok D')); rewrite in_range ltn_ord.
Qed.

(** ** Loops that only store coefficient columns *)
Definition local x y w : option 'cV[F]_p :=
  match inv (xtw x w *m x) with Some B => Some (B *m (xtw x w *m y)) | None => None end.

Lemma beta_loop m (step : 'I_m -> 'M[F]_(p, m) -> outcome 'M[F]_(p, m)) (v : 'I_m -> option 'cV[F]_p) :
  (forall i (b : 'M[F]_(p, m)), step i b = match v i with Some c => Ok (set_col b i c) | None => Throw end) ->
  forall idx (b0 b : 'M[F]_(p, m)), uniq idx -> loop step (fun _ => false) idx b0 = Ok (b, false) ->
  (forall i, i \in idx -> v i = Some (col i b)) /\ (forall i, i \notin idx -> col i b = col i b0).
Proof.
move=> H; elim=> [|i t IH] b0 b /=; first by move=> _ [<-].
case/andP=> nit ut; rewrite H; case E: (v i) => [c|//] /IH - /(_ ut) [H1 H2]; split=> j.
- rewrite in_cons => /orP [/eqP->|jt]; last exact: H1.
  by rewrite H2 // set_col_same.
- by rewrite in_cons negb_or => /andP [ne nt]; rewrite H2 // set_col_other.
Qed.

Lemma cv_core_local lo hi x y W (b : 'M[F]_(p, n)) : cv_core inv lo hi x y W nostop = Ok (b, false) ->
  forall i : 'I_n, (lo <= i < hi)%N -> local x y (zero_at i (W i)) = Some (col i b).
Proof.
move=> E i; rewrite -in_range.
have [||+ _] := beta_loop (v := fun i => local x y (zero_at i (W i))) _ _ E; last by apply.
- by move=> k c; rewrite /cv_step /local; case: (inv _).
- exact: range_uniq.
Qed.

Lemma fit_core_local storeS storeC lo hi x y W s :
  fit_core inv storeS storeC lo hi x y W nostop = Ok (s, false) ->
  forall i : 'I_n, (lo <= i < hi)%N -> local x y (W i) = Some (col i (betas s)).
Proof.
move/fit_core_desc => D i; rewrite -in_range => ir; rewrite (d_betas D ir).
by move: (allP (d_ok D) i ir); rewrite /okat /local /Bof; case: (inv _).
Qed.

Lemma local_ext x y x' y' w :
  (forall j, w j ord0 <> 0 -> row j x = row j x' /\ y j ord0 = y' j ord0) ->
  local x y w = local x' y' w.
Proof.
move=> H.
have X a j : x j a * w j ord0 = x' j a * w j ord0.
  case: (eqVneq (w j ord0) 0) => [->|/eqP ne]; first by rewrite !mulr0.
  by have [/rowP/(_ a)] := H j ne; rewrite !mxE => ->.
have P (z z' : 'I_n -> F) a : (forall j, w j ord0 <> 0 -> z j = z' j) ->
   \sum_j x j a * w j ord0 * z j = \sum_j x' j a * w j ord0 * z' j.
  move=> Hz; apply: eq_bigr => j _; rewrite X.
  case: (eqVneq (w j ord0) 0) => [->|/eqP ne]; first by rewrite mulr0 !mul0r.
  by rewrite Hz.
have E1 : xtw x w *m x = xtw x' w *m x'.
  apply/matrixP => a b; rewrite [LHS]mxE [RHS]mxE.
  under eq_bigr do rewrite xtw_entry; under [RHS]eq_bigr do rewrite xtw_entry.
  by apply: P => j ne; have [/rowP/(_ b)] := H j ne; rewrite !mxE => ->.
have E2 : xtw x w *m y = xtw x' w *m y'.
  apply/matrixP => a b; rewrite [LHS]mxE [RHS]mxE.
  under eq_bigr do rewrite xtw_entry; under [RHS]eq_bigr do rewrite xtw_entry.
  by apply: P => j ne; have [_] := H j ne; rewrite (ord1 b).
by rewrite /local E1 E2.
Qed.

(** ** C47, C48 *)
Lemma C47_main lo hi x y x' y' W (b b' : 'M[F]_(p, n)) (i : 'I_n) : (lo <= i < hi)%N ->
  cv_core inv lo hi x y W nostop = Ok (b, false) ->
  cv_core inv lo hi x' y' W nostop = Ok (b', false) ->
  (forall j, j != i -> row j x = row j x' /\ y j ord0 = y' j ord0) -> col i b = col i b'.
Proof.
move=> ir /cv_core_local/(_ i ir) E /cv_core_local/(_ i ir) E' H.
apply: Some_inj; rewrite -E -E'; apply: local_ext => j; rewrite mxE.
by case: eqVneq => // ne _; apply: H.
Qed.

Lemma local_minimal x y w b : (forall j, 0 <= w j ord0) -> local x y w = Some b -> only_minimiser x y w b.
Proof.
move=> w0; rewrite /local; case E: (inv _) => [B|//] [<-].
have EB := contract E.
have S : solves x y w (B *m (xtw x w *m y)).
  by rewrite /solves mulmxA mulmxA [_ *m B](left_is_right EB) mul1mx.
move=> b'; rewrite (wrss_expand b' S); set bb := B *m _ in S *.
set T := \sum_j _; have T0 : 0 <= T.
  by apply: sumr_ge0 => j _; rewrite mulr_ge0 // sqr_ge0.
split; first by rewrite ler_addl.
move=> E'; have {E'}T1 : T = 0 by apply: (addrI (wrss x y w bb)); rewrite addr0.
have Z := weighted_zero w0 T1.
have: B *m (xtw x w *m x) *m (bb - b') = 0 by rewrite -!mulmxA Z mulmx0.
by rewrite EB mul1mx => /eqP; rewrite subr_eq0 => /eqP.
Qed.

Lemma wrss_zero_at x y w b i :
  wrss x y (zero_at i w) b = \sum_(j | j != i) w j ord0 * (y j ord0 - (x *m b) j ord0) ^+ 2.
Proof.
rewrite /wrss [RHS]big_mkcond /=; apply: eq_bigr => j _; rewrite [zero_at _ _ _ _]mxE.
by case: (j == i); rewrite /= ?mul0r.
Qed.

Lemma C47_min_main lo hi x y W (b : 'M[F]_(p, n)) (i : 'I_n) : (lo <= i < hi)%N ->
  (forall j, 0 <= W i j ord0) ->
  cv_core inv lo hi x y W nostop = Ok (b, false) ->
  forall b', \sum_(j | j != i) W i j ord0 * (y j ord0 - (x *m col i b) j ord0) ^+ 2 <=
             \sum_(j | j != i) W i j ord0 * (y j ord0 - (x *m b') j ord0) ^+ 2 /\
    (\sum_(j | j != i) W i j ord0 * (y j ord0 - (x *m b') j ord0) ^+ 2 =
     \sum_(j | j != i) W i j ord0 * (y j ord0 - (x *m col i b) j ord0) ^+ 2 -> b' = col i b).
Proof.
move=> ir w0 /cv_core_local/(_ i ir) E b'; rewrite -!wrss_zero_at.
apply: local_minimal => // j; rewrite mxE; by case: ifP.
Qed.

Lemma C48_main storeS storeC lo hi x y x' y' W s s' (i : 'I_n) : (lo <= i < hi)%N ->
  fit_core inv storeS storeC lo hi x y W nostop = Ok (s, false) ->
  fit_core inv storeS storeC lo hi x' y' W nostop = Ok (s', false) ->
  (forall j, W i j ord0 <> 0 -> row j x = row j x' /\ y j ord0 = y' j ord0) ->
  col i (betas s) = col i (betas s').
Proof.
move=> ir /fit_core_local/(_ i ir) E /fit_core_local/(_ i ir) E' H.
by apply: Some_inj; rewrite -E -E'; apply: local_ext.
Qed.

(** ** C49 *)
Lemma xtw_scale x w (c : F) : xtw x (c *: w) = c *: xtw x w.
Proof. by apply/matrixP => a j; rewrite !mxE mulrCA. Qed.

Lemma cof_scale x (W W' : 'I_n -> 'cV[F]_n) i (c : F) : c != 0 -> W' i = c *: W i ->
  okat x W i -> okat x W' i -> cof x W' i = cof x W i.
Proof.
move=> c0 EW ok ok'; rewrite /cof EW xtw_scale.
have -> : Bof x W' i = c^-1 *: Bof x W i; last first.
  by rewrite -scalemxAl -scalemxAr scalerA mulVf // scale1r.
apply: (left_unique _ (Bof_inv ok')).
by rewrite EW xtw_scale -!scalemxAl -scalemxAr scalerA mulVf // scale1r Bof_inv.
Qed.

Lemma C49_main storeS storeC lo hi x y (W W' : 'I_n -> 'cV[F]_n) (c : 'I_n -> F) s s' :
  (forall i, c i != 0 /\ W' i = c i *: W i) ->
  fit_core inv storeS storeC lo hi x y W nostop = Ok (s, false) ->
  fit_core inv storeS storeC lo hi x y W' nostop = Ok (s', false) ->
  betas s' = betas s /\ shat0 s' = shat0 s /\ shat1 s' = shat1 s /\ qdiag s' = qdiag s /\ se2 s' = se2 s.
Proof.
move=> H E E'; have [D D'] := (fit_core_desc E, fit_core_desc E').
have Hc i : i \in range n lo hi -> cof x W' i = cof x W i.
  move=> ir; have [c0 EW] := H i; apply: (cof_scale c0 EW).
  - exact: (allP (d_ok D)).
  - exact: (allP (d_ok D')).
have Hs i : i \in range n lo hi -> sof x W' i = sof x W i by move=> ir; rewrite /sof Hc.
split; [|split; [|split; [|split]]].
- apply: col_inj => i; case ir: (i \in range n lo hi).
  + by rewrite (d_betas D ir) (d_betas D' ir) !beta_cof Hc.
  + by rewrite (d_betas0 D) ?ir // (d_betas0 D') ?ir.
- rewrite (d_sh0 D) (d_sh0 D'); congr (_ + _); by apply: eq_big_seq => i ir; rewrite Hs.
- rewrite (d_sh1 D) (d_sh1 D'); congr (_ + _); by apply: eq_big_seq => i ir; rewrite Hs.
- rewrite (d_q D) (d_q D'); congr (_ + _); by apply: eq_big_seq => i ir; rewrite /qof Hs.
- apply: col_inj => i; case ir: (i \in range n lo hi).
  + by rewrite (d_se D ir) (d_se D' ir) Hc.
  + by rewrite (d_se0 D) ?ir // (d_se0 D') ?ir.
Qed.

Lemma wrss_scale x y w b (c : F) : wrss x y (c *: w) b = c * wrss x y w b.
Proof. by rewrite /wrss mulr_sumr; apply: eq_bigr => j _; rewrite [(c *: w) _ _]mxE mulrA. Qed.

Lemma C49_global_main storeS storeC lo hi x y W (c : 'I_n -> F) s :
  (forall i, 0 < c i /\ forall j, W i j ord0 = c i) ->
  fit_core inv storeS storeC lo hi x y W nostop = Ok (s, false) ->
  forall i : 'I_n, (lo <= i < hi)%N -> forall b',
    \sum_j (y j ord0 - (x *m col i (betas s)) j ord0) ^+ 2 <= \sum_j (y j ord0 - (x *m b') j ord0) ^+ 2 /\
    (\sum_j (y j ord0 - (x *m b') j ord0) ^+ 2 =
     \sum_j (y j ord0 - (x *m col i (betas s)) j ord0) ^+ 2 -> b' = col i (betas s)).
Proof.
move=> H E i ir b'; have [c0 Hc] := H i.
have w0 j : 0 <= W i j ord0 by rewrite Hc ltW.
have [] := local_minimal w0 (fit_core_local E ir) b'.
have X b : wrss x y (W i) b = c i * \sum_j (y j ord0 - (x *m b) j ord0) ^+ 2.
  by rewrite /wrss mulr_sumr; apply: eq_bigr => j _; rewrite Hc.
rewrite !X ler_pmul2l // => H1 H2; split=> // H3; apply: H2; by rewrite H3.
Qed.

(** ** C51 *)
Lemma fit_predict_loop storeS storeC lo x y W stop idx : forall s,
  loop (predict_step inv x y W) stop idx (betas s) =
  match loop (fit_step inv storeS storeC lo x y W) stop idx s with
  | Ok (s', b) => Ok (betas s', b) | Throw => Throw | UB => UB end.
Proof.
elim: idx => [|i t IH] s //=; case: (stop i) => //.
by rewrite /predict_step /fit_step; case: (inv _) => //= B; rewrite -IH.
Qed.

Lemma C51_main (L D : Type) (dist : L -> L -> D) (weight : ('I_n -> D) -> 'cV[F]_n)
   (coords : 'I_n -> L) x y stop st :
  predict_at inv dist weight coords coords x y false stop false st =
  match fit_at inv dist weight coords x y false stop st with
  | Ok (b, st') => Ok (inl b, st') | Throw => Throw | UB => UB end.
Proof.
rewrite /predict_at /fit_at /predict /fit /predict_core /fit_core range_full.
change (loop (predict_step inv x y (weight_vector dist weight coords coords)) stop (enum 'I_n) 0) with
  (loop (predict_step inv x y (weight_vector dist weight coords coords)) stop (enum 'I_n) (betas (fit0 F n p))).
rewrite (fit_predict_loop true false 0).
by case: (loop _ _ _ _) => // [[s b]].
Qed.

(** ** C52 *)
Lemma C52_status_main x y W stop0 stop (b : 'M[F]_(n, p)) st :
  fit inv x y W stop0 stop Terminated = Ok (b, st) -> st = Terminated.
Proof.
rewrite /fit; case: stop0; first by case.
by case: (fit_core _ _ _ _ _ _ _ _) => // [[f []]] [].
Qed.

Lemma loop_stop (m : nat) (S : Type) (step : 'I_m -> S -> outcome S) stop idx : forall st st' (b : bool),
  loop step stop idx st = Ok (st', b) -> has stop idx -> b = true.
Proof.
elim: idx => [|i t IH] st st' b //=; case: (stop i) => /= [[]//|].
by case: (step i st) => // st2 /IH.
Qed.

Lemma C52_stop_main x y W stop0 stop (b : 'M[F]_(n, p)) st st' :
  fit inv x y W stop0 stop st = Ok (b, st') -> stop0 || [exists i, stop i] -> st' = Terminated.
Proof.
rewrite /fit; case: stop0 => /=; first by case.
case E: (fit_core _ _ _ _ _ _ _ _) => [[f t]||] //= [_ <-] /existsP [i si].
rewrite (loop_stop E) //; apply/hasP; exists i => //.
by rewrite range_full mem_enum.
Qed.

Lemma loop_prefix (m : nat) (S : Type) (step : 'I_m -> S -> outcome S) stop idx : forall st st' (b : bool),
  loop step stop idx st = Ok (st', b) ->
  loop step (fun _ => false) (take (find stop idx) idx) st = Ok (st', false).
Proof.
elim: idx => [|i t IH] st st' b /=; first by case=> <-.
case E: (stop i) => /=; first by case=> <-.
by case: (step i st) => // st2 /IH.
Qed.

Lemma in_prefix (stop : 'I_n -> bool) i :
  (i \in take (find stop (enum 'I_n)) (enum 'I_n)) = [forall j : 'I_n, (j <= i)%N ==> ~~ stop j].
Proof.
rewrite in_take ?mem_enum // index_enum_ord; apply/idP/forallP => [lt j|H].
- apply/implyP => ji; have := before_find j (leq_ltn_trans ji lt).
  by rewrite nth_ord_enum => ->.
- rewrite ltnNge; apply/negP => le.
  have ltn : (find stop (enum 'I_n) < n)%N by apply: leq_ltn_trans (ltn_ord i).
  have h : has stop (enum 'I_n) by rewrite has_find size_enum_ord.
  have := nth_find i h; rewrite -[find _ _]/(nat_of_ord (Ordinal ltn)) nth_ord_enum => sj.
  by move: (H (Ordinal ltn)); rewrite sj /= implybF => /negP; apply.
Qed.

Lemma C52_partial_main x y W stop (b : 'M[F]_(n, p)) st st' :
  fit inv x y W false stop st = Ok (b, st') -> forall i : 'I_n,
  ((forall j : 'I_n, (j <= i)%N -> ~~ stop j) -> (forall j, 0 <= W i j ord0) ->
     only_minimiser x y (W i) (row i b)^T) /\
  ((exists2 j : 'I_n, (j <= i)%N & stop j) -> row i b = 0).
Proof.
rewrite /fit; case E: (fit_core _ _ _ _ _ _ _ _) => [[f t]||] //= [<- _] i.
have {}E := loop_prefix E; rewrite range_full in E.
have D := fit_loop (take_uniq _ (enum_uniq _)) E.
have Er : (row i (betas f)^T) = (col i (betas f))^T by rewrite tr_col.
split=> [H w0|[j ji sj]].
- have ir : i \in take (find stop (enum 'I_n)) (enum 'I_n).
    by rewrite in_prefix; apply/forallP => j; apply/implyP => /H.
  rewrite Er trmxK (d_betas D ir); apply: minimal => //; exact: (allP (d_ok D)).
- rewrite Er (d_betas0 D) /=; first by apply/rowP => a; rewrite !mxE.
  by rewrite in_prefix; apply/negP => /forallP /(_ j); rewrite ji sj.
Qed.

(** ** C86, C87 *)
Lemma shat_loop storeS storeC lo x y W stop idx : forall s,
  loop (shat_step inv x y W) stop idx (betas s, shat0 s, shat1 s) =
  match loop (fit_step inv storeS storeC lo x y W) stop idx s with
  | Ok (s', b) => Ok (betas s', shat0 s', shat1 s', b) | Throw => Throw | UB => UB end.
Proof.
elim: idx => [|i t IH] s //=; case: (stop i) => //.
by rewrite /shat_step /fit_step; case: (inv _) => //= B; rewrite -IH.
Qed.
Lemma C86_main storeS storeC lo hi x y W stop :
  shat_core inv lo hi x y W stop =
  match fit_core inv storeS storeC lo hi x y W stop with
  | Ok (s, b) => Ok (betas s, shat0 s, shat1 s, b) | Throw => Throw | UB => UB end.
Proof. exact: (shat_loop _ _ _ _ _ _ _ _ (fit0 F n p)). Qed.

Lemma C87_main storeS lo hi x y W s : (hi <= n)%N ->
  fit_core inv storeS true lo hi x y W nostop = Ok (s, false) ->
  forall i : 'I_n, (lo <= i < hi)%N ->
  col i (betas s) = sliceC s (i - lo)%N *m y /\
  sliceC s (i - lo)%N *m x = 1%:M /\
  forall a, se2 s a i = (sliceC s (i - lo)%N *m (sliceC s (i - lo)%N)^T) a a.
Proof.
move=> hn /fit_core_desc D i ii; have ir : i \in range n lo hi by rewrite in_range.
have lo0 k : k \in range n lo hi -> (lo <= k)%N by rewrite in_range => /andP [].
rewrite (d_C D isT lo0 ir) (d_betas D ir) beta_cof; split=> //; split.
  rewrite /cof -mulmxA; apply: Bof_inv; exact: (allP (d_ok D)).
move=> a; have /colP/(_ a) := d_se D ir; rewrite [col _ _ _ _]mxE => ->.
rewrite [LHS]mxE [RHS]mxE; apply: eq_bigr => j _; by rewrite [_^T _ _]mxE expr2.
Qed.

Lemma C44_sum storeC x y W s :
  fit_core inv true storeC 0 n x y W nostop = Ok (s, false) ->
  [/\ (forall i, \sum_a x i a * betas s a i = (stored s *m y) i ord0),
      shat0 s = \tr (stored s), shat1 s = \tr ((stored s)^T *m stored s) &
      forall j, qdiag s j ord0 = \sum_i ((1%:M - stored s) i j) ^+ 2].
Proof.
move=> E; have [H1 H2 H3 H4] := C44_main E; split=> // i.
by rewrite -H1 [RHS]mxE.
Qed.

Lemma C52_result x y W stop0 stop (b : 'M[F]_(n, p)) st st' :
  fit inv x y W stop0 stop st = Ok (b, st') ->
  (stop0 = true -> b = 0) /\
  (stop0 = false -> forall i : 'I_n,
  ((forall j : 'I_n, (j <= i)%N -> ~~ stop j) -> (forall j, 0 <= W i j ord0) ->
     only_minimiser x y (W i) (row i b)^T) /\
  ((exists2 j : 'I_n, (j <= i)%N & stop j) -> row i b = 0)).
Proof.
case: stop0 => E; split=> // _; first by move: E; rewrite /fit; case.
exact: (C52_partial_main E).
Qed.
End G.

Lemma C52_both (F : realFieldType) n p (inv : 'M[F]_p -> option 'M[F]_p)
    (x : 'M[F]_(n, p)) y W stop0 stop b st st' :
  fit inv x y W stop0 stop st = Ok (b, st') ->
  st = Terminated \/ stop0 || [exists i, stop i] -> st' = Terminated.
Proof.
move=> E [H|H]; last exact: (C52_stop_main E).
by move: E; rewrite H => /C52_status_main.
Qed.

Lemma C52_predict_main (F : realFieldType) n p m (inv : 'M[F]_p -> option 'M[F]_p)
    (x : 'M[F]_(n, p)) y (Wl : 'I_m -> 'cV[F]_n) stop0 stop stop1 b st st' :
  predict inv x y Wl stop0 stop stop1 st = Ok (b, st') ->
  (st = Terminated \/ [|| stop0, stop1 | [exists i, stop i]] -> st' = Terminated) /\
  (stop0 || stop1 -> b = inr 0).
Proof.
rewrite /predict; case: stop0; first by case=> <- <-.
case E: (predict_core _ _ _ _ _) => [[c stopped]||] //=.
case: stop1; first by case=> <- <-.
case=> _ <-. split=> // -[->|]; first by case: stopped {E}.
case/existsP=> i Hi. suff -> : stopped = true by [].
apply: (loop_stop E). by apply/hasP; exists i => //; rewrite mem_enum.
Qed.

(** ** The cross-validation criterion and prediction at arbitrary locations *)
Lemma criterion_cv_loo (F : realFieldType) n p (inv : 'M[F]_p -> option 'M[F]_p)
    (x : 'M[F]_(n, p)) y (W : 'I_n -> 'cV[F]_n) stop t v : inverse_contract inv ->
  (forall i j, 0 <= W i j ord0) -> criterion_cv inv x y W stop t = Some v ->
  t = false /\ (forall i, ~~ stop i) /\
  exists b : 'M[F]_(p, n), v = \sum_i (y i ord0 - (x *m col i b) i ord0) ^+ 2 /\
    forall (i : 'I_n) (w : 'cV[F]_n), w i ord0 = 0 -> (forall j, j != i -> w j ord0 = W i j ord0) ->
      only_minimiser x y w (col i b).
Proof.
move=> IC P. rewrite /criterion_cv.
case E: (cv_core _ _ _ _ _ _ _) => [[b stopped]||] //=. case: t => //=. case Hs: stopped => //= [] [<-].
rewrite Hs in E. split=> //.
have NS : forall i, ~~ stop i.
  move: E; rewrite /cv_core => E i.
  apply/negP => si. suff: has stop (range n 0 n) by move/(loop_stop E).
  by apply/hasP; exists i => //; rewrite in_range ltn_ord.
split=> //.
exists b; split.
  rewrite /RSS; apply: eq_bigr => i _. rewrite [in LHS]mxE [in LHS]mxE Fitted_row.
  by rewrite -row_mul [row _ _ _ _]mxE.
move=> i w Hi Hw.
have -> : w = zero_at i (W i).
  apply/colP => j. rewrite mxE. case: (altP (j =P i)) => [->|nj]; [exact: Hi|by rewrite Hw].
have E' : cv_core inv 0 n x y W (fun _ => false) = Ok (b, false).
  move: E; rewrite /cv_core. move: (range n 0 n) (0 : 'M[F]_(p, n)); elim=> [|k l IH] m //=.
  rewrite (negbTE (NS k)). by case: (cv_step _ _ _ _ _ _) => // m'; apply: IH.
have /(_ i) L := cv_core_local E'. apply: (local_minimal IC) (L _); last by rewrite ltn_ord.
by move=> j; rewrite mxE; case: ifP.
Qed.

Lemma predict_min (F : realFieldType) n p m (inv : 'M[F]_p -> option 'M[F]_p)
    (L D : Type) (dist : L -> L -> D) (weight : ('I_n -> D) -> 'cV[F]_n) (coords : 'I_n -> L) (locations : 'I_m -> L)
    (x : 'M[F]_(n, p)) y (stop : 'I_m -> bool) st b st' :
  inverse_contract inv -> (forall i, ~~ stop i) ->
  predict_at inv dist weight coords locations x y false stop false st = Ok (inl b, st') ->
  st' = st /\ forall i : 'I_m, let w := weight (fun j => dist (locations i) (coords j)) in
  (forall j, 0 <= w j ord0) -> only_minimiser x y w (row i b)^T.
Proof.
move=> IC NS. rewrite /predict_at /predict /predict_core.
case E: (loop _ _ _ _) => [[c stopped]||] //= [<- <-].
have E' : loop (predict_step inv x y (weight_vector dist weight locations coords)) (fun _ => false) (enum 'I_m) 0
          = Ok (c, stopped).
  move: E; move: (enum 'I_m) (0 : 'M[F]_(p, m)); elim=> [|k l IH] q //=.
  rewrite (negbTE (NS k)). by case: (predict_step _ _ _ _ _ _) => // q'; apply: IH.
have Hs : stopped = false.
  move: E'; move: (enum 'I_m) (0 : 'M[F]_(p, m)); elim=> [|k l IH] q /=; first by case.
  by case: (predict_step _ _ _ _ _ _) => // q'; apply: IH.
rewrite Hs in E' *. split=> // i P.
have [||+ _] := beta_loop (v := fun i => local inv x y (weight_vector dist weight locations coords i)) _ _ E'.
- by move=> k d; rewrite /predict_step /local; case: (inv _).
- exact: enum_uniq.
move=> /(_ i (mem_enum _ _)) Hl.
rewrite tr_row trmxK.
apply: (local_minimal IC P). exact: Hl.
Qed.
