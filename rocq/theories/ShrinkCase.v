(** The data of RidgeFitCases.v with the sign of the regressor changed. *)
From mathcomp Require Import all_ssreflect all_algebra.
From Verif Require Import Outcome GwrModel GwrSpec GwrProofs GwrCases RidgeFitModel RidgeFitSpec RidgeFitProofs RidgeFitCases.
Set Implicit Arguments. Unset Strict Implicit. Unset Printing Implicit Defensive.
Import Order.TTheory GRing.Theory Num.Theory.
Local Open Scope ring_scope.

Definition rx2 : 'M[rat]_(3, 2) := \matrix_(j, a) (if nat_of_ord a == 0%N then 1 else 1 - (nat_of_ord j)%:R).
Lemma rx2_rescale (j : 'I_3) (a : 'I_2) : rx2 j a = rx j a * (if nat_of_ord a == 0%N then 1 else - 1).
Proof. by rewrite !mxE; case: ifP => _; rewrite ?mulr1 // mulrN1 opprB. Qed.
Lemma var_col2 a : variance (col a rx2) = if nat_of_ord a == 0%N then 0 else 1.
Proof.
rewrite /variance /= !big_ord_recl !big_ord0 !mxE /=. apply/eqP. by case: a => [[|[|//]] h]; vm_compute.
Qed.
Lemma rx_sd2 a : Xsd id rx2 a = 1.
Proof. rewrite /Xsd /stddev var_col2. by case: (nat_of_ord a == 0%N). Qed.
Lemma rx_svar2 a : sample_variance (col a rx2) = if nat_of_ord a == 0%N then 0 else 1.
Proof.
rewrite /sample_variance !big_ord_recl !big_ord0 !mxE /=. apply/eqP. by case: a => [[|[|//]] h]; vm_compute.
Qed.
Lemma r_roots2 i : exact_roots id rx2 (rW i).
Proof.
split=> //; split=> [j _|a]; first by rewrite mxE expr1n.
rewrite rx_svar2. by case: (nat_of_ord a == 0%N).
Qed.
Lemma r_roots2' : exact_roots id rx2 (const_mx 1). Proof. exact: (r_roots2 ord0). Qed.

Lemma rK_normal2 l : 0 <= l -> rK l *m (rx2^T *m rx2 + l *: 1%:M) = 1%:M.
Proof.
move=> l0. have n3 : 3%:R + l != 0 by rewrite lt0r_neq0 // ltr_paddr.
have n2 : 2%:R + l != 0 by rewrite lt0r_neq0 // ltr_paddr.
have E : rx2^T *m rx2 + l *: 1%:M = \matrix_(a, b) (if a == b then (if nat_of_ord a == 0%N then 3%:R + l else 2%:R + l) else 0).
  apply/matrixP => a b. rewrite !mxE !big_ord_recl big_ord0 !mxE /=.
  case: a => [[|[|//]] ha]; case: b => [[|[|//]] hb] //=; rewrite -?val_eqE /= ?mulr1 ?mulr0 ?addr0 //; congr (_ + _); apply/eqP; by vm_compute.
rewrite E. apply/matrixP => a b. rewrite [LHS]mxE (bigD1 a) //= [rK l a a]mxE eqxx big1 => [|c /negbTE nc]; last by rewrite [rK l a c]mxE eq_sym nc mul0r.
rewrite addr0 [(\matrix_(_, _) _) _ _]mxE [RHS]mxE. case: (a == b); last by rewrite mulr0.
case: (nat_of_ord a == 0%N); by rewrite mulVf.
Qed.

Lemma r_ridge2 (y : 'cV[rat]_3) l : 0 <= l -> variance y != 0 ->
  ridgelm (@exact_inv _ 2) id rx2 y (const_mx 1) l = Ok (Some (rK l *m (rx2^T *m y))).
Proof.
move=> l0 vy. rewrite /ridgelm /=.
have Ey : (\col_j (y j ord0 * (const_mx 1 : 'cV[rat]_3) j ord0)) = y by apply/colP => j; rewrite !mxE mulr1.
rewrite /stddev /= Ey (negbTE vy) orbF.
case: ifP => [/orP [/existsP [j]|/existsP [a]]|_]; first by rewrite mxE ltr10. - by rewrite rx_sd2 oner_eq0.
have EX : (\matrix_(j, a) ((\matrix_(j0, a0) (rx2 j0 a0 * (const_mx 1 : 'cV[rat]_3) j0 ord0)) j a / Xsd id rx2 a)) = rx2.
  by apply/matrixP => j a; rewrite !mxE rx_sd2 invr1 !mulr1.
rewrite EX (exact_inv_eq (rK_normal2 l0)). congr (Ok (Some _)). apply/colP => a.
rewrite [LHS]mxE rx_sd2 divr1.
have -> : (\col_j (y j ord0 / variance y)) = (variance y)^-1 *: y by apply/colP => j; rewrite !mxE mulrC.
by rewrite -!scalemxAr [X in X * _]mxE mulrAC mulVf // mul1r.
Qed.

Lemma r_x1w2 : x1w rx2 (const_mx 1) = rx2.
Proof. by apply/matrixP => j a; rewrite !mxE mulr1. Qed.

Lemma r_fit2 t (y : 'cV[rat]_3) l : 0 <= l -> variance y != 0 -> exists s,
  lc_fit (@exact_inv _ 2) id t rx2 y rW (fun _ => l) (fun _ => false) = Ok (s, false) /\
  (forall i, lc_betas s i = Some (rK l *m (rx2^T *m y))) /\ lc_trS s = t.1 + 2%:R.
Proof.
move=> l0 vy.
have St i st : lc_step (@exact_inv _ 2) id rx2 y rW (fun _ => l) i st =
  let hr := hat_row rx2 (rW i) i (rK 0) in
  Ok (LC (fun j => if j == i then Some (rK l *m (rx2^T *m y)) else lc_betas st j) (lc_trS st + hr ord0 i) (lc_trStS st + \sum_j hr ord0 j * hr ord0 j)).
  rewrite /lc_step /lc_row (r_ridge2 l0 vy) r_x1w2. have := rK_normal2 (lexx 0). by rewrite scale0r addr0 => /exact_inv_eq ->.
have [s [b E]] : exists s b, lc_fit (@exact_inv _ 2) id t rx2 y rW (fun _ => l) (fun _ => false) = Ok (s, b).
  rewrite /lc_fit. move: (LC _ _ _). elim: (enum _) => [|i idx IH] st /=; first by exists st, false.
  rewrite St. exact: IH.
have [Eb H1 [B [H2 H3 _]]] := lc_fit_desc E.
exists s. split; first by rewrite E Eb. split; first by move=> i; have := H1 i; rewrite (r_ridge2 l0 vy) => - [<-].
have EB i : B i = rK 0.
  have := H2 i. rewrite r_x1w2. have := rK_normal2 (lexx 0). by rewrite scale0r addr0 => /exact_inv_eq -> [<-].
rewrite H3. congr (_ + _). under eq_bigr => i _ do rewrite EB /hat_row r_x1w2.
rewrite !big_ord_recl big_ord0 !mxE !big_ord_recl !big_ord0 !mxE !big_ord_recl !big_ord0 !mxE /= !mul0r !mulr0 !addr0 !add0r. apply/eqP. by vm_compute.
Qed.

Lemma units_case : (forall i, exact_roots id rx2 (rW i)) /\
  (forall j a, rx2 j a = rx j a * (if nat_of_ord a == 0%N then 1 else - 1)) /\ exists s,
  lc_fit (@exact_inv _ 2) id (0, 0) rx2 ry rW (fun _ => 1) (fun _ => false) = Ok (s, false).
Proof.
split; first exact: r_roots2. split; first exact: rx2_rescale.
have [s [E _]] := r_fit2 (0, 0) (ler01 : 0 <= (1 : rat)) ry_var; by exists s.
Qed.
