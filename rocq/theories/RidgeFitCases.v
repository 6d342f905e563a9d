From mathcomp Require Import all_ssreflect all_algebra.
From Verif Require Import Outcome GwrModel GwrSpec GwrProofs GwrCases RidgeFitModel RidgeFitSpec RidgeFitProofs.
Set Implicit Arguments. Unset Strict Implicit. Unset Printing Implicit Defensive.
Import Order.TTheory GRing.Theory Num.Theory.
Local Open Scope ring_scope.

Lemma exact_inv_eq (F : realFieldType) p (A B : 'M[F]_p) : B *m A = 1%:M -> exact_inv A = Some B.
Proof.
move=> E. have U : A \in unitmx by case/mulmx1_unit: E. by rewrite /exact_inv U -[B]mulmx1 -(mulmxV U) mulmxA E mul1mx.
Qed.

Lemma exact_inv22 (F : realFieldType) (A : 'M[F]_2) :
  A ord0 ord0 * A ord_max ord_max - A ord0 ord_max * A ord_max ord0 != 0 -> exact_inv A <> None.
Proof.
set d := _ - _ => nz.
pose B : 'M[F]_2 := \matrix_(a, b) ((if a == b then A (rev_ord a) (rev_ord a) else - A a b) / d).
rewrite (@exact_inv_eq _ _ _ B) //.
have o1 : lift ord0 ord0 = ord_max :> 'I_2 by apply: val_inj.
have r0 : rev_ord ord0 = ord_max :> 'I_2 by apply: val_inj.
have r1 : rev_ord ord_max = ord0 :> 'I_2 by apply: val_inj.
have c a : a = ord0 \/ a = ord_max :> 'I_2.
  by case: a => [[|[|//]] h]; [left|right]; apply: val_inj.
apply/matrixP => a b. rewrite [LHS]mxE big_ord_recl big_ord1 o1 [B a ord0]mxE [B a ord_max]mxE [RHS]mxE.
case: (c a) => ->; case: (c b) => ->; rewrite ?eqxx /= ?r0 ?r1 ?mulr1n ?mulr0n.
- by rewrite mulrAC [X in _ + X]mulrAC -mulrDl mulNr [A ord_max ord_max * _]mulrC divff.
- rewrite mulrAC [X in _ + X]mulrAC -mulrDl mulNr [A ord_max ord_max * _]mulrC subrr mul0r //.
- rewrite mulrAC [X in _ + X]mulrAC -mulrDl mulNr [A ord0 ord0 * _]mulrC addNr mul0r //.
- by rewrite mulrAC [X in _ + X]mulrAC -mulrDl mulNr addrC [A ord_max ord0 * _]mulrC divff.
Qed.

(** Three observations, intercept and the regressor -1, 0, 1. *)
Definition rx : 'M[rat]_(3, 2) := \matrix_(j, a) (if nat_of_ord a == 0%N then 1 else (nat_of_ord j)%:R - 1).
Definition ry : 'cV[rat]_3 := \col_j (nth 0 [:: 0; 2%:R; 1] j).
Definition rW (i : 'I_3) : 'cV[rat]_3 := const_mx 1.
Definition rK (l : rat) : 'M[rat]_2 := \matrix_(a, b) (if a == b then (if nat_of_ord a == 0%N then (3%:R + l)^-1 else (2%:R + l)^-1) else 0).

Lemma var_col a : variance (col a rx) = if nat_of_ord a == 0%N then 0 else 1.
Proof.
rewrite /variance /= !big_ord_recl !big_ord0 !mxE /=. apply/eqP. by case: a => [[|[|//]] h]; vm_compute.
Qed.
Lemma rx_sd a : Xsd id rx a = 1.
Proof. rewrite /Xsd /stddev var_col. by case: (nat_of_ord a == 0%N). Qed.
Lemma rx_svar a : sample_variance (col a rx) = if nat_of_ord a == 0%N then 0 else 1.
Proof.
rewrite /sample_variance !big_ord_recl !big_ord0 !mxE /=. apply/eqP. by case: a => [[|[|//]] h]; vm_compute.
Qed.
Lemma r_roots i : exact_roots id rx (rW i).
Proof.
split=> //; split=> [j _|a]; first by rewrite mxE expr1n.
rewrite rx_svar. by case: (nat_of_ord a == 0%N).
Qed.
Lemma r_roots' : exact_roots id rx (const_mx 1). Proof. exact: (r_roots ord0). Qed.

Lemma rK_normal l : 0 <= l -> rK l *m (rx^T *m rx + l *: 1%:M) = 1%:M.
Proof.
move=> l0. have n3 : 3%:R + l != 0 by rewrite lt0r_neq0 // ltr_paddr.
have n2 : 2%:R + l != 0 by rewrite lt0r_neq0 // ltr_paddr.
have E : rx^T *m rx + l *: 1%:M = \matrix_(a, b) (if a == b then (if nat_of_ord a == 0%N then 3%:R + l else 2%:R + l) else 0).
  apply/matrixP => a b. rewrite !mxE !big_ord_recl big_ord0 !mxE /=.
  case: a => [[|[|//]] ha]; case: b => [[|[|//]] hb] //=; rewrite -?val_eqE /= ?mulr1 ?mulr0 ?addr0 //; congr (_ + _); apply/eqP; by vm_compute.
rewrite E. apply/matrixP => a b. rewrite [LHS]mxE (bigD1 a) //= [rK l a a]mxE eqxx big1 => [|c /negbTE nc]; last by rewrite [rK l a c]mxE eq_sym nc mul0r.
rewrite addr0 [(\matrix_(_, _) _) _ _]mxE [RHS]mxE. case: (a == b); last by rewrite mulr0.
case: (nat_of_ord a == 0%N); by rewrite mulVf.
Qed.

Lemma r_ridge (y : 'cV[rat]_3) l : 0 <= l -> variance y != 0 ->
  ridgelm (@exact_inv _ 2) id rx y (const_mx 1) l = Ok (Some (rK l *m (rx^T *m y))).
Proof.
move=> l0 vy. rewrite /ridgelm /=.
have Ey : (\col_j (y j ord0 * (const_mx 1 : 'cV[rat]_3) j ord0)) = y by apply/colP => j; rewrite !mxE mulr1.
rewrite /stddev /= Ey (negbTE vy) orbF.
case: ifP => [/orP [/existsP [j]|/existsP [a]]|_]; first by rewrite mxE ltr10. - by rewrite rx_sd oner_eq0.
have EX : (\matrix_(j, a) ((\matrix_(j0, a0) (rx j0 a0 * (const_mx 1 : 'cV[rat]_3) j0 ord0)) j a / Xsd id rx a)) = rx.
  by apply/matrixP => j a; rewrite !mxE rx_sd invr1 !mulr1.
rewrite EX (exact_inv_eq (rK_normal l0)). congr (Ok (Some _)). apply/colP => a.
rewrite [LHS]mxE rx_sd divr1.
have -> : (\col_j (y j ord0 / variance y)) = (variance y)^-1 *: y by apply/colP => j; rewrite !mxE mulrC.
by rewrite -!scalemxAr [X in X * _]mxE mulrAC mulVf // mul1r.
Qed.

Lemma r_x1w : x1w rx (const_mx 1) = rx.
Proof. by apply/matrixP => j a; rewrite !mxE mulr1. Qed.

Lemma r_fit t (y : 'cV[rat]_3) l : 0 <= l -> variance y != 0 -> exists s,
  lc_fit (@exact_inv _ 2) id t rx y rW (fun _ => l) (fun _ => false) = Ok (s, false) /\
  (forall i, lc_betas s i = Some (rK l *m (rx^T *m y))) /\ lc_trS s = t.1 + 2%:R.
Proof.
move=> l0 vy.
have St i st : lc_step (@exact_inv _ 2) id rx y rW (fun _ => l) i st =
  let hr := hat_row rx (rW i) i (rK 0) in
  Ok (LC (fun j => if j == i then Some (rK l *m (rx^T *m y)) else lc_betas st j) (lc_trS st + hr ord0 i) (lc_trStS st + \sum_j hr ord0 j * hr ord0 j)).
  rewrite /lc_step /lc_row (r_ridge l0 vy) r_x1w. have := rK_normal (lexx 0). by rewrite scale0r addr0 => /exact_inv_eq ->.
have [s [b E]] : exists s b, lc_fit (@exact_inv _ 2) id t rx y rW (fun _ => l) (fun _ => false) = Ok (s, b).
  rewrite /lc_fit. move: (LC _ _ _). elim: (enum _) => [|i idx IH] st /=; first by exists st, false.
  rewrite St. exact: IH.
have [Eb H1 [B [H2 H3 _]]] := lc_fit_desc E.
exists s. split; first by rewrite E Eb. split; first by move=> i; have := H1 i; rewrite (r_ridge l0 vy) => - [<-].
have EB i : B i = rK 0.
  have := H2 i. rewrite r_x1w. have := rK_normal (lexx 0). by rewrite scale0r addr0 => /exact_inv_eq -> [<-].
rewrite H3. congr (_ + _). under eq_bigr => i _ do rewrite EB /hat_row r_x1w.
rewrite !big_ord_recl big_ord0 !mxE !big_ord_recl !big_ord0 !mxE !big_ord_recl !big_ord0 !mxE /= !mul0r !mulr0 !addr0 !add0r. apply/eqP. by vm_compute.
Qed.

Lemma ry_var : variance ry != 0.
Proof. rewrite /variance /= !big_ord_recl !big_ord0 !mxE /=. by vm_compute. Qed.

Lemma r_exists l : 0 <= l -> exists b, ridgelm (@exact_inv _ 2) id rx ry (const_mx 1) l = Ok (Some b).
Proof. move=> l0; eexists; exact: (r_ridge l0 ry_var). Qed.

Lemma r_second : exists s s' b b',
  lc_fit (@exact_inv _ 2) id (0, 0) rx ry rW (fun _ => 0) (fun _ => false) = Ok (s, b) /\
  lc_fit (@exact_inv _ 2) id (lc_trS s, lc_trStS s) rx ry rW (fun _ => 0) (fun _ => false) = Ok (s', b') /\
  lc_trS s = 2%:R /\ lc_trS s' = 4%:R.
Proof.
have [s [E [_ T]]] := r_fit (0, 0) (lexx 0) ry_var.
have [s' [E' [_ T']]] := r_fit (lc_trS s, lc_trStS s) (lexx 0) ry_var.
exists s, s', false, false. split=> //; split=> //. rewrite T' T /= add0r. split=> //.
Qed.

Lemma r_trace : ~ exists S : 'M[rat]_3, forall y s b,
  lc_fit (@exact_inv _ 2) id (0, 0) rx y rW (fun _ => 1) (fun _ => false) = Ok (s, b) ->
  (forall i bi, lc_betas s i = Some bi -> (rx *m bi) i ord0 = (S *m y) i ord0) /\ lc_trS s = \tr S.
Proof.
move=> [S H].
have D j : S j j = 4%:R^-1 + ((nat_of_ord j)%:R - 1) ^+ 2 / 3%:R /\ \tr S = 2%:R.
  pose e : 'cV[rat]_3 := \col_k (if k == j then 1 else 0).
  have ve : variance e != 0.
    rewrite /variance /= !big_ord_recl !big_ord0 !mxE /=. by case: j {e} => [[|[|[|//]]] h]; vm_compute.
  have [s [E [B T]]] := r_fit (0, 0) (ler01 : 0 <= (1 : rat)) ve.
  have [H1 H2] := H _ _ _ E. split; last by rewrite -H2 T /= add0r.
  have := H1 j _ (B j).
  have -> : (S *m e) j ord0 = S j j.
    rewrite mxE (bigD1 j) //= mxE eqxx mulr1 big1 ?addr0 // => k /negbTE nk. by rewrite mxE nk mulr0.
  move=> <-. rewrite !mxE !big_ord_recl !big_ord0 !mxE !big_ord_recl !big_ord0 !mxE !big_ord_recl !big_ord0 !mxE /=.
  apply/eqP. by case: j {e ve s E B T H1 H2} => [[|[|[|//]]] h]; vm_compute.
have [_ T] := D ord0. move: T. rewrite /mxtrace !big_ord_recl big_ord0 !(proj1 (D _)) /=. move/eqP. by vm_compute.
Qed.

(** Cross-validation on the same data. *)
Lemma r_cv : exists v, lc_cv (@exact_inv _ 2) id rx ry rW (fun _ => 1) = Ok (Some v).
Proof.
rewrite /lc_cv. elim: (enum _) => [|i idx [v IH]] /=; first by exists 0.
have [b ->] : exists b, ridgelm (@exact_inv _ 2) id rx ry (\col_j (if j == i then 0 else rW i j ord0)) 1 = Ok (Some b).
  rewrite /ridgelm /=. case: ifP => [/orP [/orP [/existsP [j]|]|/existsP [a]]|_].
  - rewrite !mxE. by case: (j == i).
  - rewrite /stddev /variance /= !big_ord_recl !big_ord0 !mxE /=. by case: i => [[|[|[|//]]] h]; vm_compute.
  - by rewrite rx_sd oner_eq0.
  - case E: (exact_inv _) => [B|]; first by eexists; reflexivity.
    exfalso. move: E. apply: exact_inv22.
    rewrite !mxE !big_ord_recl !big_ord0 !mxE /= !rx_sd. by case: i => [[|[|[|//]]] h]; vm_compute.
rewrite IH. by eexists.
Qed.

Lemma r_one i : rW i i ord0 = 1. Proof. by rewrite mxE. Qed.
Lemma r_modes :
  predict_serial_step (@exact_inv _ 2) id rx ry (const_mx 1) 0 = Ok tt /\
  predict_omp_step (@exact_inv _ 2) id rx ry (const_mx 1) 0 = Throw.
Proof.
split; last exact: predict_omp_throw.
by rewrite /predict_serial_step (r_ridge (lexx 0) ry_var).
Qed.
Lemma r_omp : exists t s s' b,
  lc_fit (@exact_inv _ 2) id t rx ry rW (fun _ => 0) (fun _ => false) = Ok (s, b) /\
  lc_fit_omp (@exact_inv _ 2) id t (fun _ => ord0 : 'I_1) (enum 'I_3) rx ry rW (fun _ => 0) = Ok s' /\
  lc_trS s <> lc_trS s'.
Proof.
have [s [E [_ T]]] := r_fit (2%:R, 0) (lexx 0) ry_var.
have [s' [E' [_ T']]] := r_fit (0, 0) (lexx 0) ry_var.
have := lc_omp (@exact_inv _ 2) id (2%:R, 0) (fun _ => ord0 : 'I_1) rx ry rW (fun _ => 0) (perm_refl (enum 'I_3)).
rewrite E'. case Eo: (lc_fit_omp _ _ _ _ _ _ _ _ _) => [so||] // [_ [To _]].
exists (2%:R, 0), s, so, false. split=> //; split=> //. by rewrite To T T'.
Qed.
