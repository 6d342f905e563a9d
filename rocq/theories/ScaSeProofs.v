From mathcomp Require Import all_ssreflect all_algebra.
From Verif Require Import Outcome GwrModel GwrSpec GwrProofs ScaModel ScaSpec ScaProofs ScaSeModel ScaSeSpec.
Set Implicit Arguments. Unset Strict Implicit. Unset Printing Implicit Defensive.
Import Order.TTheory GRing.Theory Num.Theory.
Local Open Scope ring_scope.

Section P.
Variables (F : realFieldType) (n k P : nat).
Variable inv : 'M[F]_k -> option 'M[F]_k.
Variable gp : nat -> F -> F.
Variable sq : F -> F.
Notation xi := (@xi k P).

Lemma prepare2_ok (x : 'M[F]_(n, k)) (nb : seq ('I_n * F)) : exists mx, prepare2 P gp x nb = Ok mx /\
  forall k1 p k2, mx (xi (k1, p, k2)) = \sum_(q <- nb) x q.1 k1 * G gp p q.2 * G gp p q.2 * x q.1 k2.
Proof.
pose VX (t : xT k P) := \sum_(q <- nb) x q.1 t.1.1 * G gp t.1.2 q.2 * G gp t.1.2 q.2 * x q.1 t.2.
rewrite /prepare2.
set L := for_ _ _ _.
pose Q1 := (fun (dn : seq 'I_k) (m : nat -> F) => holds xi (fun t => t.1.1 \in dn) VX m).
have [mx [E HX]] : exists st', L = Ok st' /\ Q1 (enum 'I_k) st'; [apply: (@for_rule _ _ _ Q1); first exact: enum_uniq| ]; last first.
- exists mx. split; first exact: E. move=> k1 p k2; apply: (HX (k1, p, k2)); by rewrite /= mem_enum.
- move=> dn k1 mx _ _ HX.
  set L' := for_ _ _ _.
  pose Q2 := (fun (dp : seq 'I_P.+1) (m : nat -> F) => holds xi (fun t => (t.1.1 \in dn) || (t.1.1 == k1) && (t.1.2 \in dp)) VX m).
  have [mx' [E HX']] : exists st', L' = Ok st' /\ Q2 (enum 'I_P.+1) st'; [apply: (@for_rule _ _ _ Q2); first exact: enum_uniq| ]; last first.
  + exists mx'. split; first exact: E. move=> t; rewrite mem_rcons inE => H; apply: HX'; rewrite mem_enum andbT orbC; exact: H.
  + move=> dp p m1 _ _ H1.
    set L'' := for_ _ _ _.
    pose Q3 := (fun (d2 : seq 'I_k) (m : nat -> F) => holds xi (fun t => ((t.1.1 \in dn) || (t.1.1 == k1) && (t.1.2 \in dp)) || ((t.1.1 == k1) && (t.1.2 == p) && (t.2 \in d2))) VX m).
    have [m1' [E1 H1']] : exists st', L'' = Ok st' /\ Q3 (enum 'I_k) st'; [apply: (@for_rule _ _ _ Q3); first exact: enum_uniq| ]; last first.
    * exists m1'. split; first exact: E1. move=> t H. apply: H1'. move: H. rewrite mem_rcons inE mem_enum andbT. bsolve.
    * move=> d2 k2 m _ _ H. rewrite xindex_same -/(xi (k1, p, k2)).
      have [m' [E' H']] := write_holds (t := (k1, p, k2)) (@xi_inj k P) (xi_lt _) H. exists m'. split; first exact: E'.
      apply: holds_sub H' => t. rewrite mem_rcons inE -pair_eqE /pair_eq /= -pair_eqE /pair_eq /=.
      bsolve.
    * by apply: holds_sub H1 => t; rewrite in_nil andbF orbF.
  + apply: holds_sub HX => t; by rewrite in_nil andbF orbF.
- by [].
Qed.

Lemma G_term (b : F) (R0 : 'I_P.+1 -> F) : poly_weights P b = Some R0 -> forall p g, R0 p * G gp p g = term gp b p g.
Proof. by move=> E p g; rewrite /term (poly_weights_share E) /G; case: p => [[|p] Hp]. Qed.

Lemma by_observation (nb : seq ('I_n * F)) (f : 'I_n -> F -> F) :
  \sum_(q <- nb) f q.1 q.2 = \sum_j \sum_(q <- nb | q.1 == j) f j q.2.
Proof.
transitivity (\sum_(q <- nb) \sum_j if q.1 == j then f j q.2 else 0).
  apply: eq_bigr => q _. by rewrite -big_mkcond /= (big_pred1 q.1) // => j; rewrite eq_sym.
rewrite exchange_big /=. by apply: eq_bigr => j _; rewrite [RHS]big_mkcond.
Qed.

Lemma local_sums2_ok (x : 'M[F]_(n, k)) (y : 'cV[F]_n) (b a : F) nb (R0 : 'I_P.+1 -> F) : poly_weights P b = Some R0 ->
  local_sums2 gp x y R0 a nb = Ok (cross x (second_weight P gp b a nb)).
Proof.
move=> E. rewrite /local_sums2.
have [mx [my [-> [HX HY]]]] := prepare_ok P gp x y nb. rewrite /=.
have [mx2 [-> HX2]] := prepare2_ok x nb. rewrite /=.
have [rx [ry [-> [RX RY]]]] := spread_ok k R0. rewrite /=.
have [sm [sy [-> [SM SY]]]] := collect_ok k P (fun j => 2%:R * a * (rx j * mx j) + rx j * rx j * mx2 j) (fun j => ry j * my j). rewrite /=.
congr (Ok _). apply/matrixP => c d. rewrite mxE mxE [RHS]mxE SM.
have -> : \sum_(p < P.+1) (2%:R * a * (rx (xi (c, p, d)) * mx (xi (c, p, d))) + rx (xi (c, p, d)) * rx (xi (c, p, d)) * mx2 (xi (c, p, d)))
  = \sum_(q <- nb) (x q.1 c * (2%:R * a * (\sum_(p < P.+1) term gp b p q.2) + \sum_(p < P.+1) term gp b p q.2 ^+ 2) * x q.1 d).
  transitivity (\sum_(p < P.+1) \sum_(q <- nb) x q.1 c * (2%:R * a * term gp b p q.2 + term gp b p q.2 ^+ 2) * x q.1 d).
    apply: eq_bigr => p _. rewrite RX HX HX2 mulr_sumr mulr_sumr mulr_sumr -big_split /=. apply: eq_bigr => q _.
    rewrite -(G_term E). move: (R0 p) (G gp p q.2) (x q.1 c) (x q.1 d) => r g u v.
    rewrite mulrDr mulrDl. congr (_ + _).
      rewrite -!mulrA. rewrite [u * (2%:R * _)]mulrCA. congr (_ * _). rewrite [u * (a * _)]mulrCA. congr (_ * _). by rewrite [r * (u * _)]mulrCA.
    rewrite expr2 -!mulrA [u * (r * _)]mulrCA. congr (_ * _). rewrite [r * (u * _)]mulrCA. congr (_ * _). by rewrite [g * (r * _)]mulrCA.
  rewrite exchange_big /=. apply: eq_bigr => q _. by rewrite -mulr_suml -mulr_sumr big_split /= -mulr_sumr.
rewrite (by_observation nb (fun j g => x j c * (2%:R * a * (\sum_(p < P.+1) term gp b p g) + \sum_(p < P.+1) term gp b p g ^+ 2) * x j d)).
rewrite mxE mxE mulr_sumr -big_split /=. apply: eq_bigr => j _. rewrite !mxE -mulr_suml -mulr_sumr big_split /= -mulr_sumr.
move: (\sum_(q <- nb | q.1 == j) _) (\sum_(q <- nb | q.1 == j) _) => s t.
rewrite -addrA [a ^+ 2 + _]addrC. rewrite [x j c * (_ + a ^+ 2)]mulrDr mulrDl. congr (_ + _).
by rewrite expr2 -!mulrA [x j c * (a * _)]mulrCA; congr (_ * _); rewrite mulrCA.
Qed.

Lemma cross_xtw (x : 'M[F]_(n, k)) (w : 'cV[F]_n) : cross x w = xtw x w *m x.
Proof. apply/matrixP => c d. rewrite !mxE. by apply: eq_bigr => j _; rewrite xtw_entry. Qed.

(** What fitSerial returns. *)
Definition bet (x : 'M[F]_(n, k)) (y w : 'cV[F]_n) : 'cV[F]_k := match inv ((cross x w)^T *m cross x w) with
  | Some B => B *m ((cross x w)^T *m (xtw x w *m y)) | None => 0 end.
Definition var_ (x : 'M[F]_(n, k)) (w d : 'cV[F]_n) : option 'M[F]_k := match inv ((cross x w)^T *m cross x w) with
  | Some B => Some (B *m cross x d *m B) | None => None end.
Definition tr1_ (x : 'M[F]_(n, k)) (w : 'cV[F]_n) (i : 'I_n) : F := match inv ((cross x w)^T *m cross x w) with
  | Some B => (row i x *m (B *m (row i x)^T)) ord0 ord0 | None => 0 end.
Definition tr2_ (x : 'M[F]_(n, k)) (w d : 'cV[F]_n) (i : 'I_n) : F := match inv ((cross x w)^T *m cross x w) with
  | Some B => (row i x *m B^T *m cross x d *m (B *m (row i x)^T)) ord0 ord0 | None => 0 end.

Lemma serial_main (x : 'M[F]_(n, k)) (y : 'cV[F]_n) b a NB : 0 < b -> exists r,
  fit_serial P inv gp sq x y b a NB = Ok (Some r) /\
  (forall i, s_betas r i = bet x y (sca_weight P gp b a (NB i))) /\
  (forall i, s_bse r i = match var_ x (sca_weight P gp b a (NB i)) (second_weight P gp b a (NB i)) with
                         | Some V => \col_c sq (V c c) | None => 0 end) /\
  s_trS r = \sum_i tr1_ x (sca_weight P gp b a (NB i)) i /\
  s_trStS r = \sum_i tr2_ x (sca_weight P gp b a (NB i)) (second_weight P gp b a (NB i)) i.
Proof.
move=> b0. rewrite /fit_serial. have [R0 E] := poly_weights_some P b0. rewrite E.
pose w i := sca_weight P gp b a (NB i). pose d i := second_weight P gp b a (NB i).
pose se i := match var_ x (w i) (d i) with Some V => \col_c sq (V c c) | None => 0 end.
pose Q (dn : seq 'I_n) (st : serial F n k) :=
  (forall i, s_betas st i = if i \in dn then bet x y (w i) else 0) /\
  (forall i, s_bse st i = if i \in dn then se i else 0) /\
  s_trS st = \sum_(i <- dn) tr1_ x (w i) i /\ s_trStS st = \sum_(i <- dn) tr2_ x (w i) (d i) i.
set L := for_ _ _ _.
have [r [-> [H1 [H2 [H3 H4]]]]] : exists st', L = Ok st' /\ Q (enum 'I_n) st'.
  apply: (@for_rule _ _ _ Q); first exact: enum_uniq.
    by rewrite /Q /= !big_nil.
  move=> dn i st _ Ni [I1 [I2 [I3 I4]]]. rewrite /serial_step (local_sums_ok gp x y a (NB i) E) /= (local_sums2_ok x y a (NB i) E) /=.
  rewrite -/(w i) -/(d i) -cross_xtw.
  case EI: (inv _) => [B|]; eexists; (split; first by reflexivity); (split; [|split; [|split]]) => /=.
  - move=> j. rewrite I1 mem_rcons inE. case: eqP => [->|] //=. by rewrite /bet EI.
  - move=> j. rewrite I2 mem_rcons inE. case: eqP => [->|] //=. by rewrite /se /var_ EI.
  - by rewrite I3 -cats1 big_cat big_seq1 /= /tr1_ EI.
  - rewrite I4 -cats1 big_cat big_seq1 /= /tr2_ EI. congr (_ + _).
    have -> : row i x *m B^T = (B *m (row i x)^T)^T by rewrite trmx_mul trmxK.
    move: (B *m (row i x)^T) (cross x (d i)) => u C. rewrite -mulmxA [RHS]mxE. by apply: eq_bigr => c _; rewrite [in RHS]mxE.
  - move=> j. rewrite I1 mem_rcons inE. case: eqP => [->|] //=. by rewrite (negbTE Ni) /bet EI.
  - move=> j. rewrite I2 mem_rcons inE. case: eqP => [->|] //=. by rewrite (negbTE Ni) /se /var_ EI.
  - by rewrite I3 -cats1 big_cat big_seq1 /= /tr1_ EI addr0.
  - by rewrite I4 -cats1 big_cat big_seq1 /= /tr2_ EI addr0.
exists r. split=> //. split; first by move=> i; rewrite H1 mem_enum.
split; first by move=> i; rewrite H2 mem_enum.
by rewrite H3 H4 !big_enum.
Qed.
End P.
