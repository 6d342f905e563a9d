From mathcomp Require Import all_ssreflect all_algebra.
From Verif Require Import Outcome GwrModel GwrSpec GwrProofs ScaModel ScaSpec.
Set Implicit Arguments. Unset Strict Implicit. Unset Printing Implicit Defensive.
Import Order.TTheory GRing.Theory Num.Theory.
Local Open Scope ring_scope.

Lemma for_rule (I : eqType) (S : Type) (f : I -> S -> outcome S) (Q : seq I -> S -> Prop) (s : seq I) (st : S) :
  uniq s -> Q [::] st ->
  (forall dn i st, i \in s -> i \notin dn -> Q dn st -> exists st', f i st = Ok st' /\ Q (rcons dn i) st') ->
  exists st', for_ s f st = Ok st' /\ Q s st'.
Proof.
move=> U Q0 H.
suff G : forall dn st, uniq (dn ++ s) -> Q dn st -> exists st', for_ s f st = Ok st' /\ Q (dn ++ s) st'.
  exact: (G [::] st U Q0).
elim: s {U Q0 st} H => [|i s IH] H dn st U Qs /=; first by exists st; rewrite cats0.
have ni : i \notin dn.
  move: U. rewrite cat_uniq /= negb_or => /and3P [_ /andP [ni _] _]. exact: ni.
have [st1 [-> Q1]] := H dn i st (mem_head _ _) ni Qs.
have U1 : uniq (rcons dn i ++ s) by rewrite cat_rcons.
have [|st2 [E2 Q2]] := IH _ (rcons dn i) st1 U1 Q1.
  move=> dn' j st' J. apply: H. by rewrite inE J orbT.
exists st2. by rewrite E2 -cat_rcons.
Qed.

Ltac bsolve := rewrite /=; repeat match goal with
  | |- context [@in_mem ?T ?a ?b] => case: (@in_mem T a b)
  | |- context [@eq_op ?T ?a ?b] => case: (@eq_op T a b) end; by [].

(** ** Packed indices *)
Section Idx.
Variables (k P : nat).
Lemma xindex_same k1 p k2 : xindex_w k P k1 p k2 = xindex_r k P k1 p k2.
Proof. by rewrite /xindex_w /xindex_r mulnDl. Qed.
Lemma xindex_range k1 p k2 : (k1 < k)%N -> (p < P.+1)%N -> (k2 < k)%N -> (xindex_r k P k1 p k2 < xsize k P)%N.
Proof.
move=> H1 Hp H2. rewrite -xindex_same /xindex_w /xsize.
have A : (k1 * P.+1 + p < k * P.+1)%N.
  apply: (@leq_trans (k1 * P.+1 + P.+1)%N); first by rewrite ltn_add2l. by rewrite addnC -mulSn leq_mul2r H1 orbT.
apply: (@leq_trans ((k1 * P.+1 + p) * k + k)%N); first by rewrite ltn_add2l.
by rewrite addnC -mulSn [(P.+1 * k)%N]mulnC leq_mul2r A orbT.
Qed.
Lemma yindex_range p k1 : (p < P.+1)%N -> (k1 < k)%N -> (yindex k p k1 < ysize k P)%N.
Proof.
move=> Hp H1. rewrite /yindex /ysize. apply: (@leq_trans (p * k + k)%N); first by rewrite ltn_add2l.
by rewrite addnC -mulSn leq_mul2r Hp orbT.
Qed.
Lemma pack_inj m a b a' b' : (b < m)%N -> (b' < m)%N -> (a * m + b = a' * m + b' -> a = a' /\ b = b')%N.
Proof.
move=> B B' E. have m0 : (0 < m)%N by apply: leq_ltn_trans B.
have := congr1 (fun z => z %/ m)%N E. rewrite !divnMDl // !divn_small // !addn0 => Ea.
split=> //. move: E. rewrite Ea. by move/addnI.
Qed.
Lemma xindex_inj k1 p k2 k1' p' k2' : (p < P.+1)%N -> (p' < P.+1)%N -> (k2 < k)%N -> (k2' < k)%N ->
  xindex_r k P k1 p k2 = xindex_r k P k1' p' k2' -> [/\ k1 = k1', p = p' & k2 = k2'].
Proof.
move=> Hp Hp' H2 H2'. rewrite -!xindex_same /xindex_w => /(pack_inj H2 H2') [E ->].
by case: (pack_inj Hp Hp' E).
Qed.
Lemma yindex_inj p k1 p' k1' : (k1 < k)%N -> (k1' < k)%N -> yindex k p k1 = yindex k p' k1' -> p = p' /\ k1 = k1'.
Proof. exact: pack_inj. Qed.
End Idx.

Section P.
Variables (F : realFieldType) (n k P : nat).
Variable inv : 'M[F]_k -> option 'M[F]_k.
Variable gp : nat -> F -> F.

(** Memory agreeing with V at the positions D. *)
Definition holds (T : Type) (idx : T -> nat) (D : T -> bool) (V : T -> F) (m : nat -> F) := forall t, D t -> m (idx t) = V t.
Lemma write_holds (T : eqType) (idx : T -> nat) size D V m t : injective idx -> (idx t < size)%N -> holds idx D V m ->
  exists m', write size (idx t) (V t) m = Ok m' /\ holds idx (fun t' => D t' || (t' == t)) V m'.
Proof.
move=> J B H. rewrite /write B. eexists; split; first by reflexivity.
move=> t' /= Dt. case: (idx t' =P idx t) => [Ei|ne]; first by rewrite (J _ _ Ei). case/orP: Dt => [/H //|/eqP Et]. by rewrite Et in ne.
Qed.
Lemma holds_sub (T : Type) (idx : T -> nat) (D D' : T -> bool) V m : (forall t, D' t -> D t) -> holds idx D V m -> holds idx D' V m.
Proof. by move=> S H t /S /H. Qed.

Definition xT := ('I_k * 'I_P.+1 * 'I_k)%type.
Definition yT := ('I_P.+1 * 'I_k)%type.
Definition xi (t : xT) : nat := xindex_r k P t.1.1 t.1.2 t.2.
Definition yi (t : yT) : nat := yindex k t.1 t.2.
Lemma xi_inj : injective xi.
Proof.
move=> [[k1 p] k2] [[k1' p'] k2']. rewrite /xi /= => /xindex_inj [] // /val_inj -> /val_inj -> /val_inj ->. by [].
Qed.
Lemma yi_inj : injective yi.
Proof. move=> [p k1] [p' k1']. by rewrite /yi /= => /yindex_inj [] // /val_inj -> /val_inj ->. Qed.
Lemma xi_lt t : (xi t < xsize k P)%N. Proof. exact: xindex_range. Qed.
Lemma yi_lt t : (yi t < ysize k P)%N. Proof. exact: yindex_range. Qed.

Lemma prepare_ok (x : 'M[F]_(n, k)) (y : 'cV[F]_n) (nb : seq ('I_n * F)) : exists mx my,
  prepare P gp x y nb = Ok (mx, my) /\
  (forall k1 p k2, mx (xi (k1, p, k2)) = \sum_(q <- nb) x q.1 k1 * G gp p q.2 * x q.1 k2) /\
  (forall p k1, my (yi (p, k1)) = \sum_(q <- nb) x q.1 k1 * G gp p q.2 * y q.1 ord0).
Proof.
pose VX (t : xT) := \sum_(q <- nb) x q.1 t.1.1 * G gp t.1.2 q.2 * x q.1 t.2.
pose VY (t : yT) := \sum_(q <- nb) x q.1 t.2 * G gp t.1 q.2 * y q.1 ord0.
rewrite /prepare.
set L := for_ _ _ _.
  pose Q1 := (fun (dn : seq 'I_k) (st : (nat -> F) * (nat -> F)) =>
   holds xi (fun t => t.1.1 \in dn) VX st.1 /\ holds yi (fun t => t.2 \in dn) VY st.2).
  have [[mx my] [E [HX HY]]] : exists st', L = Ok st' /\ Q1 (enum 'I_k) st'; [apply: (@for_rule _ _ _ Q1); first exact: enum_uniq| ]; last first.
- exists mx, my. split; first exact: E. split=> [k1 p k2|p k1]; [apply: (HX (k1, p, k2))|apply: (HY (p, k1))]; by rewrite /= mem_enum.
- move=> dn k1 [mx my] _ _ [/= HX HY].
  set L' := for_ _ _ _.
  pose Q2 := (fun (dp : seq 'I_P.+1) (st : (nat -> F) * (nat -> F)) =>
   holds xi (fun t => (t.1.1 \in dn) || (t.1.1 == k1) && (t.1.2 \in dp)) VX st.1 /\
   holds yi (fun t => (t.2 \in dn) || (t.2 == k1) && (t.1 \in dp)) VY st.2).
  have [[mx' my'] [E [HX' HY']]] : exists st', L' = Ok st' /\ Q2 (enum 'I_P.+1) st'; [apply: (@for_rule _ _ _ Q2); first exact: enum_uniq| ]; last first.
  + exists (mx', my'). split; first exact: E. split=> [t|t]; rewrite mem_rcons inE => H; [apply: HX'|apply: HY']; rewrite mem_enum andbT orbC; exact: H.
  + move=> dp p [m1 m2] _ _ [/= H1 H2].
    pose Q3 := (fun (d2 : seq 'I_k) (m : nat -> F) => holds xi (fun t => ((t.1.1 \in dn) || (t.1.1 == k1) && (t.1.2 \in dp)) || ((t.1.1 == k1) && (t.1.2 == p) && (t.2 \in d2))) VX m).
  have [m1' [E1 H1']] : exists st', for_ (enum 'I_k) (fun (k2 : 'I_k) mx => write (xsize k P) (xindex_w k P k1 p k2) (\sum_(q <- nb) x q.1 k1 * G gp p q.2 * x q.1 k2) mx) m1 = Ok st' /\ Q3 (enum 'I_k) st'; [apply: (@for_rule _ _ _ Q3); first exact: enum_uniq| ]; last first.
    * rewrite E1. have [m2' [E2 H2']] := write_holds (t := (p, k1)) yi_inj (yi_lt _) H2.
      rewrite -/(yi (p, k1)) E2. eexists; split; first by reflexivity. split=> [t H|t H].
      -- apply: H1'. move: H. rewrite mem_rcons inE mem_enum andbT. bsolve.
      -- apply: H2'. move: H. rewrite mem_rcons inE /= -pair_eqE /pair_eq /=. bsolve.
    * move=> d2 k2 m _ _ H. rewrite xindex_same -/(xi (k1, p, k2)).
      have [m' [E' H']] := write_holds (t := (k1, p, k2)) xi_inj (xi_lt _) H. exists m'. split; first exact: E'.
      apply: holds_sub H' => t. rewrite mem_rcons inE -pair_eqE /pair_eq /= -pair_eqE /pair_eq /=.
      bsolve.
    * by apply: holds_sub H1 => t; rewrite in_nil andbF orbF.
  + split; [apply: holds_sub HX|apply: holds_sub HY] => t; by rewrite in_nil andbF orbF.
- by split.
Qed.

Lemma spread_ok (R0 : 'I_P.+1 -> F) : exists rx ry, spread k R0 = Ok (rx, ry) /\
  (forall k1 p k2, rx (xi (k1, p, k2)) = R0 p) /\ (forall p k1, ry (yi (p, k1)) = R0 p).
Proof.
pose VX (t : xT) := R0 t.1.2. pose VY (t : yT) := R0 t.1.
rewrite /spread.
set L := for_ _ _ _.
  pose Q4 := (fun (dn : seq 'I_P.+1) (st : (nat -> F) * (nat -> F)) =>
   holds xi (fun t => t.1.2 \in dn) VX st.1 /\ holds yi (fun t => t.1 \in dn) VY st.2).
  have [[mx my] [E [HX HY]]] : exists st', L = Ok st' /\ Q4 (enum 'I_P.+1) st'; [apply: (@for_rule _ _ _ Q4); first exact: enum_uniq| ]; last first.
- exists mx, my. split; first exact: E. split=> [k1 p k2|p k1]; [apply: (HX (k1, p, k2))|apply: (HY (p, k1))]; by rewrite /= mem_enum.
- move=> dn p [mx my] _ _ [/= HX HY].
  set L' := for_ _ _ _.
  pose Q5 := (fun (dp : seq 'I_k) (st : (nat -> F) * (nat -> F)) =>
   holds xi (fun t => (t.1.2 \in dn) || (t.1.2 == p) && (t.2 \in dp)) VX st.1 /\
   holds yi (fun t => (t.1 \in dn) || (t.1 == p) && (t.2 \in dp)) VY st.2).
  have [[mx' my'] [E [HX' HY']]] : exists st', L' = Ok st' /\ Q5 (enum 'I_k) st'; [apply: (@for_rule _ _ _ Q5); first exact: enum_uniq| ]; last first.
  + exists (mx', my'). split; first exact: E. split=> [t|t]; rewrite mem_rcons inE => H; [apply: HX'|apply: HY']; rewrite mem_enum andbT orbC; exact: H.
  + move=> dp k2 [m1 m2] _ _ [/= H1 H2].
    pose Q6 := (fun (d2 : seq 'I_k) (m : nat -> F) => holds xi (fun t => ((t.1.2 \in dn) || (t.1.2 == p) && (t.2 \in dp)) || ((t.1.2 == p) && (t.2 == k2) && (t.1.1 \in d2))) VX m).
  have [m1' [E1 H1']] : exists st', for_ (enum 'I_k) (fun (k1 : 'I_k) mx => write (xsize k P) (xindex_r k P k1 p k2) (R0 p) mx) m1 = Ok st' /\ Q6 (enum 'I_k) st'; [apply: (@for_rule _ _ _ Q6); first exact: enum_uniq| ]; last first.
    * rewrite E1. have [m2' [E2 H2']] := write_holds (t := (p, k2)) yi_inj (yi_lt _) H2.
      rewrite -/(yi (p, k2)) E2. eexists; split; first by reflexivity. split=> [t H|t H].
      -- apply: H1'. move: H. rewrite mem_rcons inE mem_enum andbT. bsolve.
      -- apply: H2'. move: H. rewrite mem_rcons inE /= -pair_eqE /pair_eq /=. bsolve.
    * move=> d2 k1 m _ _ H. rewrite -/(xi (k1, p, k2)).
      have [m' [E' H']] := write_holds (t := (k1, p, k2)) xi_inj (xi_lt _) H. exists m'. split; first exact: E'.
      apply: holds_sub H' => t. rewrite mem_rcons inE -pair_eqE /pair_eq /= -pair_eqE /pair_eq /=.
      bsolve.
    * by apply: holds_sub H1 => t; rewrite in_nil andbF orbF.
  + split; [apply: holds_sub HX|apply: holds_sub HY] => t; by rewrite in_nil andbF orbF.
- by split.
Qed.

Lemma collect_ok (mx my : nat -> F) : exists sm sy, collect k P mx my = Ok (sm, sy) /\
  (forall a c, sm a c = \sum_(p < P.+1) mx (xi (a, p, c))) /\ (forall c, sy c = \sum_(p < P.+1) my (yi (p, c))).
Proof.
rewrite /collect.
set L := for_ _ _ _.
  pose Q7 := (fun (dn : seq 'I_k) (st : ('I_k -> 'I_k -> F) * ('I_k -> F)) =>
   (forall a c, st.1 a c = if c \in dn then \sum_(p < P.+1) mx (xi (a, p, c)) else 0) /\
   (forall c, st.2 c = if c \in dn then \sum_(p < P.+1) my (yi (p, c)) else 0)).
  have [[sm sy] [E [HX HY]]] : exists st', L = Ok st' /\ Q7 (enum 'I_k) st'; [apply: (@for_rule _ _ _ Q7); first exact: enum_uniq| ]; last first.
- exists sm, sy. split; first exact: E. by split=> [a c|c]; [have /= -> := HX a c|have /= -> := HY c]; rewrite mem_enum.
- move=> dn k2 [sm sy] _ N2 [/= HX HY].
  set L' := for_ _ _ _.
  pose Q8 := (fun (dp : seq 'I_P.+1) (st : ('I_k -> 'I_k -> F) * ('I_k -> F)) =>
   (forall a c, st.1 a c = sm a c + if c == k2 then \sum_(p <- dp) mx (xi (a, p, c)) else 0) /\
   (forall c, st.2 c = sy c + if c == k2 then \sum_(p <- dp) my (yi (p, c)) else 0)).
  have [[sm' sy'] [E [HX' HY']]] : exists st', L' = Ok st' /\ Q8 (enum 'I_P.+1) st'; [apply: (@for_rule _ _ _ Q8); first exact: enum_uniq| ]; last first.
  + exists (sm', sy'). split; first exact: E. split=> [a c|c]; [have /= -> := HX' a c; rewrite HX|have /= -> := HY' c; rewrite HY]; rewrite mem_rcons inE big_enum /=.
    * case: eqP => [->|_] /=; [by rewrite (negbTE N2) add0r|by rewrite addr0].
    * case: eqP => [->|_] /=; [by rewrite (negbTE N2) add0r|by rewrite addr0].
  + move=> dp p [m1 m2] _ _ [/= H1 H2].
    pose Q9 := (fun (d1 : seq 'I_k) (s : 'I_k -> 'I_k -> F) => forall a c, s a c = m1 a c + if (a \in d1) && (c == k2) then mx (xi (a, p, c)) else 0).
  have [m1' [E1 H1']] : exists st', for_ (enum 'I_k) (fun (k1 : 'I_k) sm => match read (xsize k P) (xindex_r k P k1 p k2) mx with
              | Ok v => Ok (fun a c => if (a == k1) && (c == k2) then sm a c + v else sm a c)
              | Throw => Throw | UB => UB end) m1 = Ok st' /\ Q9 (enum 'I_k) st'; [apply: (@for_rule _ _ _ Q9); first exact: enum_uniq| ]; last first.
    * rewrite E1. rewrite /read (yindex_range (ltn_ord p) (ltn_ord k2)). eexists; split; first by reflexivity.
      split=> [a c|c] /=.
      -- rewrite H1' mem_enum /= H1 -cats1 big_cat big_seq1 /=. case: eqP => [->|_]; by rewrite ?addr0 // -addrA.
      -- rewrite H2 -cats1 big_cat big_seq1 /=. case: eqP => [->|_]; by rewrite ?addr0 // -addrA.
    * move=> d1 k1 s _ N1 H. rewrite /read (xindex_range (ltn_ord k1) (ltn_ord p) (ltn_ord k2)). eexists; split; first by reflexivity.
      move=> a c /=. rewrite H mem_rcons inE. case: eqP => [->|_] //=. rewrite (negbTE N1) /=. case: eqP => [->|_] //=. by rewrite addr0.
    * by move=> a c; rewrite in_nil addr0.
  + by split=> [a c|c] /=; rewrite big_nil; case: ifP; rewrite addr0.
- by split.
Qed.

Lemma poly_weights_share (b : F) (R0 : 'I_P.+1 -> F) : poly_weights P b = Some R0 -> forall p, R0 p = share b p.
Proof.
rewrite /poly_weights. case: ifP => // _ [<-] p.
have E (q : 'I_P.+1) : (if nat_of_ord q == 0%N then b else b ^+ q.+1) = b ^+ q.+1.
  by case: (nat_of_ord q =P 0%N) => [->|//]; rewrite expr1.
rewrite /share E. congr (_ / _). by apply: eq_bigr => q _; rewrite E.
Qed.
Lemma poly_sum_pos (b : F) : 0 < b -> 0 < \sum_(q < P.+1) b ^+ q.+1.
Proof.
move=> b0. rewrite big_ord_recl. apply: ltr_paddr; last exact: exprn_gt0.
by apply: sumr_ge0 => q _; apply: exprn_ge0; apply: ltW.
Qed.
Lemma poly_weights_some (b : F) : 0 < b -> exists R0, poly_weights P b = Some R0.
Proof.
move=> b0. rewrite /poly_weights. case: ifP => [/eqP Z|_]; last by eexists.
have := poly_sum_pos b0. have -> : \sum_(q < P.+1) b ^+ q.+1 = 0; last by rewrite ltxx.
rewrite -[RHS]Z. apply: eq_bigr => q _. by case: (nat_of_ord q =P 0%N) => [->|//]; rewrite expr1.
Qed.
Lemma share_nonneg (b : F) (p : 'I_P.+1) : 0 < b -> 0 <= share b p.
Proof. move=> b0. apply: divr_ge0; [by apply: exprn_ge0; apply: ltW|by apply: ltW; apply: poly_sum_pos]. Qed.
Lemma share_sum (b : F) : 0 < b -> \sum_(p < P.+1) share b p = 1.
Proof. move=> b0. rewrite -mulr_suml divff //. by apply: lt0r_neq0; apply: poly_sum_pos. Qed.
Lemma poly_convex (b : F) : 0 < b -> exists R0, poly_weights P b = Some R0 /\
  (forall p, 0 <= R0 p) /\ (\sum_p R0 p = 1) /\
  (forall p q : 'I_P.+1, nat_of_ord q = p.+1 -> R0 q = b * R0 p).
Proof.
move=> b0. have [R0 E] := poly_weights_some b0. have S := poly_weights_share E. exists R0. split=> //; split; [|split].
- by move=> p; rewrite S share_nonneg.
- by under eq_bigr do rewrite S; rewrite share_sum.
- move=> p q Eq. by rewrite !S /share Eq exprS mulrA.
Qed.

Lemma weight_sum (x : 'M[F]_(n, k)) (b a : F) nb (R0 : 'I_P.+1 -> F) (z : 'I_n -> F) c : poly_weights P b = Some R0 ->
  (\sum_(p < P.+1) R0 p * (\sum_(q <- nb) x q.1 c * G gp p q.2 * z q.1) + a * (\sum_j x j c * z j) =
  \sum_j x j c * sca_weight P gp b a nb j ord0 * z j)%R.
Proof.
move=> E. have S := poly_weights_share E.
have E1 : \sum_j x j c * sca_weight P gp b a nb j ord0 * z j =
  a * (\sum_j x j c * z j) + \sum_j \sum_(q <- nb | q.1 == j) \sum_(p < P.+1) R0 p * (x q.1 c * G gp p q.2 * z q.1).
  rewrite mulr_sumr -big_split /=. apply: eq_bigr => j _. rewrite mxE mulrDr mulrDl. congr (_ + _).
    by rewrite mulrAC mulrC mulrA.
  rewrite mulr_sumr mulr_suml. apply: eq_bigr => q /eqP <-. rewrite mulr_sumr mulr_suml. apply: eq_bigr => p _.
  rewrite S /G. have -> : (if nat_of_ord p == 0%N then 1 else gp p q.2) = match nat_of_ord p with 0%N => 1 | _.+1 => gp p q.2 end by case: (nat_of_ord p).
  by move: (share b p) (x q.1 c) => s' x'; rewrite -!mulrA [x' * _]mulrCA.
rewrite E1 addrC. congr (_ + _).
have E2 : forall f : 'I_n * F -> F, \sum_j \sum_(q <- nb | q.1 == j) f q = \sum_(q <- nb) f q.
  move=> f. under eq_bigr do rewrite big_mkcond. rewrite exchange_big /=. apply: eq_bigr => q _.
  by rewrite -big_mkcond /= (big_pred1 q.1) // => j; rewrite eq_sym.
rewrite E2 [RHS]exchange_big /=. by apply: eq_bigr => p _; rewrite mulr_sumr.
Qed.

Lemma local_sums_ok (x : 'M[F]_(n, k)) (y : 'cV[F]_n) (b a : F) nb (R0 : 'I_P.+1 -> F) : poly_weights P b = Some R0 ->
  let w := sca_weight P gp b a nb in
  local_sums gp x y R0 a nb = Ok (xtw x w *m x, xtw x w *m y).
Proof.
move=> E w. rewrite /local_sums.
have [mx [my [-> [HX HY]]]] := prepare_ok x y nb.
have [rx [ry [-> [RX RY]]]] := spread_ok R0.
have [sm [sy [-> [SM SY]]]] := collect_ok (fun j => rx j * mx j) (fun j => ry j * my j).
congr (Ok (_, _)).
- apply/matrixP => c d. rewrite [LHS]mxE [RHS]mxE.
  transitivity (\sum_(p < P.+1) R0 p * (\sum_(q <- nb) x q.1 c * G gp p q.2 * x q.1 d) + a * \sum_j x j c * x j d).
    congr (_ + _); first by rewrite mxE SM; apply: eq_bigr => p _; rewrite RX HX.
    rewrite mxE; congr (_ * _). rewrite mxE. by apply: eq_bigr => j _; rewrite mxE.
  rewrite (weight_sum x a nb (fun j => x j d) c E). by apply: eq_bigr => j _; rewrite xtw_entry.
- apply/colP => c. rewrite [LHS]mxE [RHS]mxE.
  transitivity (\sum_(p < P.+1) R0 p * (\sum_(q <- nb) x q.1 c * G gp p q.2 * y q.1 ord0) + a * \sum_j x j c * y j ord0).
    congr (_ + _); first by rewrite mxE SY; apply: eq_bigr => p _; rewrite RY HY.
    rewrite mxE; congr (_ * _). rewrite mxE. by apply: eq_bigr => j _; rewrite mxE.
  rewrite (weight_sum x a nb (fun j => y j ord0) c E). by apply: eq_bigr => j _; rewrite xtw_entry.
Qed.

Hypothesis contract : inverse_contract inv.
Hypothesis gp0 : forall p g, 0 <= gp p g.

Lemma weight_nonneg b a (nb : seq ('I_n * F)) : 0 < b -> 0 <= a -> forall j, 0 <= sca_weight P gp b a nb j ord0.
Proof.
move=> b0 a0 j. rewrite mxE. apply: addr_ge0 => //. apply: sumr_ge0 => q _. apply: sumr_ge0 => p _.
apply: mulr_ge0; first exact: share_nonneg. by case: (_ == _); rewrite ?ler01.
Qed.

Lemma normal_minimal (x : 'M[F]_(n, k)) (y w : 'cV[F]_n) (B : 'M[F]_k) : (forall j, 0 <= w j ord0) ->
  inv ((xtw x w *m x)^T *m (xtw x w *m x)) = Some B ->
  only_minimiser x y w (B *m ((xtw x w *m x)^T *m (xtw x w *m y))).
Proof.
move=> w0 E. set m := xtw x w *m x in E *.
pose inv' := fun M : 'M[F]_k => if M == m then Some (B *m m^T) else None.
have C : inverse_contract inv'.
  move=> M B'. rewrite /inv'. case: eqP => [->|] // [<-]. by rewrite -mulmxA (contract E).
apply: (local_minimal (inv := inv') C w0). by rewrite /local /inv' eqxx -mulmxA.
Qed.

Lemma predict_main (x : 'M[F]_(n, k)) (y : 'cV[F]_n) b a nb beta : 0 < b -> 0 <= a ->
  sca_predict P inv gp x y b a nb = Ok (Some beta) -> only_minimiser x y (sca_weight P gp b a nb) beta.
Proof.
move=> b0 a0. rewrite /sca_predict. have [R0 E] := poly_weights_some b0. rewrite E (local_sums_ok x y a nb E) /local_beta.
case EI: (inv _) => [B|] // [<-]. exact: (normal_minimal _ (weight_nonneg nb b0 a0) EI).
Qed.
Lemma predict_no_ub (x : 'M[F]_(n, k)) (y : 'cV[F]_n) b a nb : 0 < b ->
  (exists beta, sca_predict P inv gp x y b a nb = Ok (Some beta)) \/
  (sca_predict P inv gp x y b a nb = Throw /\
   let w := sca_weight P gp b a nb in inv ((xtw x w *m x)^T *m (xtw x w *m x)) = None).
Proof.
move=> b0. rewrite /sca_predict. have [R0 E] := poly_weights_some b0. rewrite E (local_sums_ok x y a nb E) /local_beta /=.
by case: (inv _) => [B|]; [left; eexists|right].
Qed.

Lemma fit_main (x : 'M[F]_(n, k)) (y : 'cV[F]_n) b a NB : 0 < b -> exists r,
  sca_fit P inv gp x y b a NB = Ok (Some r) /\
  (forall i, let w := sca_weight P gp b a (NB i) in
     r.1 i = match inv ((xtw x w *m x)^T *m (xtw x w *m x)) with
             | Some B => B *m ((xtw x w *m x)^T *m (xtw x w *m y)) | None => 0 end) /\
  r.2 = \sum_i let w := sca_weight P gp b a (NB i) in
     match inv ((xtw x w *m x)^T *m (xtw x w *m x)) with
     | Some B => (row i x *m (B *m (row i x)^T)) ord0 ord0 | None => 0 end.
Proof.
move=> b0. rewrite /sca_fit. have [R0 E] := poly_weights_some b0. rewrite E.
pose w i := sca_weight P gp b a (NB i).
pose bt i := match inv ((xtw x (w i) *m x)^T *m (xtw x (w i) *m x)) with
  | Some B => B *m ((xtw x (w i) *m x)^T *m (xtw x (w i) *m y)) | None => 0 end.
pose tr i := match inv ((xtw x (w i) *m x)^T *m (xtw x (w i) *m x)) with
  | Some B => (row i x *m (B *m (row i x)^T)) ord0 ord0 | None => 0 end.
pose Q (dn : seq 'I_n) (st : ('I_n -> 'cV[F]_k) * F) :=
  (forall i, st.1 i = if i \in dn then bt i else 0) /\ st.2 = \sum_(i <- dn) tr i.
set L := for_ _ _ _.
have [r [-> [H1 H2]]] : exists st', L = Ok st' /\ Q (enum 'I_n) st'.
  apply: (@for_rule _ _ _ Q); first exact: enum_uniq.
    by split; rewrite ?big_nil.
  move=> dn i [bs t] _ Ni [/= I1 I2]. rewrite /sca_step (local_sums_ok x y a (NB i) E) -/(w i).
  case EI: (inv _) => [B|]; eexists; (split; first by reflexivity); split=> /=.
  - move=> j. rewrite I1 mem_rcons inE. case: eqP => [->|] //=. by rewrite /bt EI.
  - by rewrite I2 -cats1 big_cat big_seq1 /= /tr EI.
  - move=> j. rewrite I1 mem_rcons inE. case: eqP => [->|] //=. by rewrite (negbTE Ni) /bt EI.
  - by rewrite I2 -cats1 big_cat big_seq1 /= /tr EI addr0.
exists r. split=> //. split; first by move=> i; rewrite H1 mem_enum.
by rewrite H2 big_enum.
Qed.

Lemma fit_minimal (x : 'M[F]_(n, k)) (y : 'cV[F]_n) b a NB r : 0 < b -> 0 <= a ->
  sca_fit P inv gp x y b a NB = Ok (Some r) ->
  forall i, let w := sca_weight P gp b a (NB i) in
    inv ((xtw x w *m x)^T *m (xtw x w *m x)) <> None -> only_minimiser x y w (r.1 i).
Proof.
move=> b0 a0 E i w. have [r' [E' [H _]]] := fit_main x y a NB b0. rewrite E in E'. case: E' => ->.
rewrite H -/w. case EI: (inv _) => [B|] // _. exact: (normal_minimal _ (weight_nonneg (NB i) b0 a0) EI).
Qed.

Lemma loocv_main solve (x : 'M[F]_(n, k)) (y : 'cV[F]_n) b a NB v : 0 < b -> 0 <= a ->
  (forall A c z, solve A c = Some z -> A *m z = c /\ A \in unitmx) ->
  loocv P gp solve x y b a NB = Ok (Some v) ->
  exists beta : 'I_n -> 'cV[F]_k, (v = \sum_i (y i ord0 - (x *m beta i) i ord0) ^+ 2) /\
    forall i, only_minimiser x y (sca_weight P gp b a (NB i)) (beta i).
Proof.
move=> b0 a0 SC. rewrite /loocv. have [R0 E] := poly_weights_some b0. rewrite E.
pose w i := sca_weight P gp b a (NB i).
pose sol i := solve (xtw x (w i) *m x) (xtw x (w i) *m y).
pose Q (dn : seq 'I_n) (acc : option F) := forall v, acc = Some v ->
  (forall i, i \in dn -> exists z, sol i = Some z) /\ v = \sum_(i <- dn) (y i ord0 - (x *m odflt 0 (sol i)) i ord0) ^+ 2.
set L := for_ _ _ _.
have [acc [EL HQ]] : exists st', L = Ok st' /\ Q (enum 'I_n) st'.
  apply: (@for_rule _ _ _ Q); first exact: enum_uniq.
    by move=> v' [<-]; rewrite big_nil.
  move=> dn i acc _ _ H. rewrite (local_sums_ok x y a (NB i) E) -/(w i) -/(sol i). eexists; split; first by reflexivity.
  move=> v'. case: acc H => [s|] // H. case ES: (sol i) => [z|] // [<-]. have [H1 H2] := H _ erefl. split.
    move=> j. rewrite mem_rcons inE => /orP [/eqP ->|]; [by exists z|exact: H1].
  by rewrite -cats1 big_cat big_seq1 /= ES /= H2.
rewrite EL => - [Ev]. have [H1 H2] := HQ _ Ev. exists (fun i => odflt 0 (sol i)). split; first by rewrite H2 big_enum.
move=> i. have [|z Ez] := H1 i; first by rewrite mem_enum. rewrite Ez /=. have [Ez' U] := SC _ _ _ Ez.
pose inv' := fun M : 'M[F]_k => if M == xtw x (w i) *m x then Some (invmx M) else None.
have C : inverse_contract inv'.
  move=> M B'. rewrite /inv'. case: eqP => [->|] // [<-]. by rewrite mulVmx.
apply: (local_minimal (inv := inv') C (weight_nonneg (NB i) b0 a0)).
by rewrite /local -/(w i) /inv' eqxx -Ez' mulmxA mulVmx // mul1mx.
Qed.
End P.

Section Q.
Variables (F : realFieldType) (n k P : nat).
Variable inv : 'M[F]_k -> option 'M[F]_k.
Variable gp : nat -> F -> F.
Lemma moments_main (x : 'M[F]_(n, k)) (y : 'cV[F]_n) (b a : F) nb (R0 : 'I_P.+1 -> F) :
  poly_weights P b = Some R0 ->
  exists m my, local_sums gp x y R0 a nb = Ok (m, my) /\ let w := sca_weight P gp b a nb in
  (forall c d, m c d = \sum_j x j c * w j ord0 * x j d) /\ (forall c, my c ord0 = \sum_j x j c * w j ord0 * y j ord0).
Proof.
move=> E. do 2 eexists. split; first exact: (local_sums_ok gp x y a nb E).
split=> [c d|c]; rewrite mxE; by apply: eq_bigr => j _; rewrite xtw_entry.
Qed.
Lemma zeros_main (x : 'M[F]_(n, k)) (y : 'cV[F]_n) b a NB : 0 < b ->
  exists r, sca_fit P inv gp x y b a NB = Ok (Some r) /\
  forall i, let w := sca_weight P gp b a (NB i) in
    inv ((xtw x w *m x)^T *m (xtw x w *m x)) = None ->
    r.1 i = 0 /\ sca_predict P inv gp x y b a (NB i) = Throw.
Proof.
move=> b0. have [r [E [H _]]] := fit_main P inv gp x y a NB b0. exists r. split=> // i w EI. split; first by rewrite H -/w EI.
case: (predict_no_ub P inv gp x y a (NB i) b0) => [[beta]|[//]].
rewrite /sca_predict. have [R0 E'] := poly_weights_some P b0. by rewrite E' (local_sums_ok gp x y a (NB i) E') /local_beta -/w EI.
Qed.
Lemma own_positive (b a : F) (nb : seq ('I_n * F)) (i : 'I_n) :
  (forall p g, 0 <= gp p g) -> 0 < b -> 0 <= a ->
  0 < a \/ (exists g, (i, g) \in nb) -> 0 < sca_weight P gp b a nb i ord0.
Proof.
move=> gp0 b0 a0 H. rewrite mxE.
have T (g : F) : 0 < \sum_(p < P.+1) share b p * (if nat_of_ord p == 0%N then 1 else gp p g).
  rewrite big_ord_recl /= mulr1. apply: ltr_paddr.
    apply: sumr_ge0 => p _. apply: mulr_ge0; first exact: share_nonneg. exact: gp0.
  by apply: divr_gt0; [rewrite exprn_gt0|exact: poly_sum_pos].
have N : 0 <= \sum_(q <- nb | q.1 == i) \sum_(p < P.+1) share b p * (if nat_of_ord p == 0%N then 1 else gp p q.2).
  by apply: sumr_ge0 => q _; apply: ltW.
case: H => [a1|[g G]]; first exact: ltr_paddr.
apply: ltr_paddl => //. rewrite (big_rem _ G) /= eqxx. apply: ltr_paddr => //. by apply: sumr_ge0 => q _; apply: ltW.
Qed.
End Q.

