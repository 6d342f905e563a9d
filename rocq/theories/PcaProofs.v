From mathcomp Require Import all_ssreflect all_algebra.
From Verif Require Import Outcome PcaModel PcaSpec.
Set Implicit Arguments. Unset Strict Implicit. Unset Printing Implicit Defensive.
Import Order.TTheory GRing.Theory Num.Theory.
Local Open Scope ring_scope.

Section P.
Variables (F : realFieldType) (n p : nat).
Variable sq : F -> F.
Variable svd : 'M[F]_(n, p) -> option (seq F * 'M[F]_p).
Hypothesis contract : svd_contract svd.

Lemma centred_entry (x : 'M[F]_(n, p)) (w : 'cV[F]_n) l c : centred sq x w l c = (x l c - wmean x w c) * sq (w l ord0).
Proof. rewrite mxE /wmean /total. congr ((_ - _ / _) * _). by apply: eq_bigr => h _; rewrite mulrC. Qed.

Section W.
Variables (x : 'M[F]_(n, p)) (w : 'cV[F]_n).
Hypothesis RT : forall l, sq (w l ord0) ^+ 2 = w l ord0.
Let A := centred sq x w.

Lemma Au (u : 'cV[F]_p) l : (A *m u) l ord0 = (\sum_c (x l c - wmean x w c) * u c ord0) * sq (w l ord0).
Proof. rewrite mxE mulr_suml. apply: eq_bigr => c _. by rewrite centred_entry mulrAC. Qed.
Lemma score_quad (u : 'cV[F]_p) : score_variation x w u = (u^T *m (A^T *m A) *m u) ord0 ord0.
Proof.
rewrite mulmxA -mulmxA -trmx_mul mxE. apply: eq_bigr => l _.
by rewrite mxE Au -{1}(RT l) -expr2 exprMn mulrC.
Qed.
Lemma variation_trace : variation x w = \tr (A^T *m A).
Proof.
rewrite /mxtrace. under [RHS]eq_bigr do rewrite mxE.
rewrite exchange_big /=. apply: eq_bigr => l _. rewrite mulr_sumr. apply: eq_bigr => c _.
by rewrite mxE centred_entry -{1}(RT l) -expr2 exprMn mulrC.
Qed.

Variables (d : seq F) (V : 'M[F]_p).
Hypothesis E : svd A = Some (d, V).
Let D : 'M[F]_p := \matrix_(i, j) (if i == j then nth 0 d i ^+ 2 else 0).

Lemma VtV : V^T *m V = 1%:M. Proof. by case: (contract E). Qed.
Lemma VVt : V *m V^T = 1%:M. Proof. exact: mulmx1C VtV. Qed.
Lemma AtA : A^T *m A = V *m D *m V^T.
Proof. case: (contract E) => _ _ _ <-. by rewrite -mulmxA VVt mulmx1. Qed.

Lemma quad (u : 'cV[F]_p) : score_variation x w u = \sum_l (V^T *m u) l ord0 ^+ 2 * nth 0 d l ^+ 2.
Proof.
rewrite score_quad AtA. set c := V^T *m u.
have -> : u^T *m (V *m D *m V^T) *m u = c^T *m D *m c by rewrite /c trmx_mul trmxK !mulmxA.
rewrite mxE. apply: eq_bigr => l _.
have -> : (c^T *m D) ord0 l = c l ord0 * nth 0 d l ^+ 2.
  rewrite mxE (bigD1 l) //= [c^T _ _]mxE [D l l]mxE eqxx big1 ?addr0 // => j ne. by rewrite [D _ _]mxE (negbTE ne) mulr0.
by rewrite mulrAC -expr2.
Qed.
Lemma coords (j l : 'I_p) : (V^T *m col j V) l ord0 = (l == j)%:R.
Proof. by rewrite colE mulmxA VtV mul1mx mxE eqxx andbT. Qed.
Lemma score_col (j : 'I_p) : score_variation x w (col j V) = nth 0 d j ^+ 2.
Proof.
rewrite quad (bigD1 j) //= coords eqxx expr1n mul1r big1 ?addr0 // => l ne. by rewrite coords (negbTE ne) expr0n mul0r.
Qed.
Lemma variation_sum : variation x w = \sum_(l < p) nth 0 d l ^+ 2.
Proof.
rewrite variation_trace AtA mxtrace_mulC mulmxA VtV mul1mx. by apply: eq_bigr => l _; rewrite mxE eqxx.
Qed.
Lemma dot_mx (u v : 'cV[F]_p) : dot u v = (u^T *m v) ord0 ord0.
Proof. by rewrite mxE; apply: eq_bigr => c _; rewrite mxE. Qed.
Lemma orth (i j : 'I_p) : dot (col i V) (col j V) = (i == j)%:R.
Proof. rewrite dot_mx. have -> : (col i V)^T = row i V^T by rewrite tr_col. by rewrite -row_mul mxE coords. Qed.
Lemma coord_dot (u : 'cV[F]_p) l : (V^T *m u) l ord0 = dot u (col l V).
Proof. rewrite mxE. by apply: eq_bigr => c _; rewrite !mxE mulrC. Qed.
Lemma best (j : 'I_p) (u : 'cV[F]_p) : dot u u = 1 -> (forall l : 'I_p, (l < j)%N -> dot u (col l V) = 0) ->
  score_variation x w u <= score_variation x w (col j V).
Proof.
move=> U O. rewrite score_col quad.
have N : \sum_l (V^T *m u) l ord0 ^+ 2 = 1.
  rewrite -U dot_mx. have -> : u^T *m u = (V^T *m u)^T *m (V^T *m u) by rewrite trmx_mul trmxK mulmxA -(mulmxA u^T) VVt mulmx1.
  by rewrite [RHS]mxE; apply: eq_bigr => l _; rewrite [_^T _ _]mxE expr2.
rewrite -[X in _ <= X]mul1r -N mulr_suml. apply: ler_sum => l _.
case: (ltnP l j) => [lj|jl]; first by rewrite coord_dot O // expr0n !mul0r.
apply: ler_wpmul2l; first exact: sqr_ge0.
have [_ _ /(_ _ _ jl) /andP [h0 h1] _] := contract E. by rewrite !expr2 ler_pmul.
Qed.
End W.

(** ** Rows of the result *)
Variables (K : nat) (x : 'M[F]_(n, p)) (W : 'I_n -> 'cV[F]_n).
Definition fine (a : seq F * seq 'cV[F]_p) (w : 'cV[F]_n) : Prop := exists d V,
  [/\ total w != 0, svd (centred sq x w) = Some (d, V), size d = p, (K <= p)%N & a = (d, [seq col j V | j <- take K (enum 'I_p)])].

Lemma pca_at_ok w a : (0 < K)%N -> pca_at sq svd K x w = Ok a -> fine a w.
Proof.
move=> K0. rewrite /pca_at /wpca. case: (altP (total w =P 0)) => [_|t0].
  by case: (p == 0)%N => //; case: (altP (K =P 0%N)) K0 => // ->.
case ES: (svd _) => [[d V]|]; last by case: (p == 0)%N => //; case: (altP (K =P 0%N)) K0 => // ->.
case: (size d =P p) => // S. case: leqP => // KP [<-]. by exists d, V; split.
Qed.
Lemma pca_all_ok s r : (0 < K)%N -> pca_all sq svd K x W s = Ok r ->
  size r = size s /\ forall k i0, (k < size s)%N -> fine (nth ([::], [::]) r k) (W (nth i0 s k)).
Proof.
move=> K0. elim: s r => [|i s IH] r /=; first by case=> <-.
case EA: (pca_at _ _ _ _ _) => [a| |] //. case ER: (pca_all _ _ _ _ _ _) => [t| |] // [<-].
have [S H] := IH _ ER. split; first by rewrite /= S.
case=> [|k] i0 L /=; [exact: pca_at_ok EA|exact: H].
Qed.
Definition row0 : seq (option F) * seq F * seq 'cV[F]_p := ([::], [::], [::]).
Lemma pca_ok r : pca sq svd K x W = Ok r -> (0 < K)%N /\ size r = n /\ forall i : 'I_n, exists a, fine a (W i) /\
  let s0 := last 0 [seq total (W i) | i <- enum 'I_n] in nth row0 r i = (pv_row sq K s0 a.1, sdev_row sq s0 a.1, a.2).
Proof.
rewrite /pca. case ER: (pca_all _ _ _ _ _ _) => [rows| |] //. case: (altP (K =P 0%N)) => // Kn [<-].
have K0 : (0 < K)%N by rewrite lt0n. split=> //. have [S H] := pca_all_ok K0 ER.
rewrite size_map S size_enum_ord. split=> // i. exists (nth ([::], [::]) rows i). split.
  rewrite -{2}(nth_ord_enum i i). apply: H. by rewrite size_enum_ord.
rewrite (nth_map ([::], [::])) //. by rewrite S size_enum_ord.
Qed.
End P.

Lemma last_total (F : realFieldType) n (W : 'I_n.+1 -> 'cV[F]_n.+1) :
  last 0 [seq total (W i) | i <- enum 'I_n.+1] = total (W ord_max).
Proof.
have N : enum 'I_n.+1 != [::] by rewrite -size_eq0 size_enum_ord.
case E: (enum 'I_n.+1) N => [//|a s] _. have -> : last 0 [seq total (W i) | i <- a :: s] = total (W (last a s)) := last_map (fun i => total (W i)) s a.
congr (total (W _)). have L := nth_last ord0 (a :: s). rewrite [RHS]/= in L. rewrite -L -E size_enum_ord.
apply: val_inj. by rewrite /= nth_enum_ord.
Qed.

Section R.
Variables (F : realFieldType) (n p : nat).
Variable sq : F -> F.
Variable svd : 'M[F]_(n.+1, p) -> option (seq F * 'M[F]_p).
Hypothesis contract : svd_contract svd.
Variables (K : nat) (x : 'M[F]_(n.+1, p)) (W : 'I_n.+1 -> 'cV[F]_n.+1).
Hypothesis RT : forall i l, sq (W i l ord0) ^+ 2 = W i l ord0.
Variable r : seq (seq (option F) * seq F * seq 'cV[F]_p).
Hypothesis E : pca sq svd K x W = Ok r.
Notation at_ i := (nth (row0 F p) r i).

Lemma shape : (0 < K <= p)%N /\ size r = n.+1 /\
  forall i : 'I_n.+1, size (at_ i).1.1 = K /\ size (at_ i).1.2 = p /\ size (at_ i).2 = K.
Proof.
have [K0 [S H]] := pca_ok E.
have [a0 [[d [V [_ _ _ KP _]]] _]] := H ord0. split; first by rewrite K0. split=> // i.
have [a [[d' [V' [_ _ Sd _ ->]]] ->]] := H i. cbn [fst snd].
rewrite /pv_row /sdev_row !size_map size_takel ?Sd // size_takel // size_enum_ord. by [].
Qed.

Lemma loading_of (V : 'M[F]_p) (j : 'I_p) : (j < K)%N -> nth 0 [seq col l V | l <- take K (enum 'I_p)] j = col j V.
Proof.
move=> JK. rewrite (nth_map j).
  by rewrite nth_take // nth_ord_enum.
rewrite size_take size_enum_ord. by case: ifP.
Qed.

Lemma components (i : 'I_n.+1) (j : nat) : (j < K)%N -> let v := nth 0 (at_ i).2 j in
  dot v v = 1 /\ (forall l, (l < j)%N -> dot v (nth 0 (at_ i).2 l) = 0) /\
  (forall u, dot u u = 1 -> (forall l, (l < j)%N -> dot u (nth 0 (at_ i).2 l) = 0) ->
     score_variation x (W i) u <= score_variation x (W i) v).
Proof.
move=> JK. have [K0 [_ H]] := pca_ok E. have [a [[d [V [_ ES Sd KP ->]]] ->]] := H i. cbn [fst snd]. cbv zeta.
have JP : (j < p)%N := leq_trans JK KP.
have LO l : (l < K)%N -> exists l' : 'I_p, nat_of_ord l' = l /\ nth 0 [seq col l V | l <- take K (enum 'I_p)] l = col l' V.
  move=> L. exists (Ordinal (leq_trans L KP)). split=> //. exact: (@loading_of V (Ordinal (leq_trans L KP))).
have [j' [Ej ->]] := LO j JK.
split; first by rewrite (orth contract ES) eqxx.
split.
  move=> l L. have [l' [El ->]] := LO l (ltn_trans L JK). rewrite (orth contract ES).
  case: eqP => // e. by move: L; rewrite -El -Ej e ltnn.
move=> u U O. apply: (best contract (RT i) ES) => // l L. rewrite Ej in L.
rewrite -(loading_of V (ltn_trans L JK)). exact: O.
Qed.

Lemma variance_value v s0 : sq s0 ^+ 2 = s0 -> variance sq s0 v = v ^+ 2 / s0.
Proof. move=> R. by rewrite /variance -expr2 expr_div_n R. Qed.
Hypothesis RM : sq (total (W ord_max)) ^+ 2 = total (W ord_max).

Lemma total_max : total (W ord_max) != 0.
Proof. have [_ [_ H]] := pca_ok E. by have [a [[d [V [T _ _ _ _]]] _]] := H ord_max. Qed.

Lemma pv_value (i : 'I_n.+1) (j : nat) : (j < K)%N -> let v := nth 0 (at_ i).2 j in
  nth None (at_ i).1.1 j =
  if variation x (W i) == 0 then None else Some (100%:R * score_variation x (W i) v / variation x (W i)).
Proof.
move=> JK. have [K0 [_ H]] := pca_ok E. have [a [[d [V [_ ES Sd KP ->]]] ->]] := H i. cbn [fst snd]. cbv zeta.
have JP : (j < p)%N := leq_trans JK KP.
rewrite -[j]/(nat_of_ord (Ordinal JP)) loading_of //= (score_col contract (RT i) ES) (variation_sum contract (RT i) ES).
rewrite last_total /pv_row. set s := \sum_(v <- d) _.
have Es : s = (\sum_(l < p) nth 0 d l ^+ 2) / total (W ord_max).
  rewrite /s (big_nth 0) Sd big_mkord mulr_suml. by apply: eq_bigr => l _; rewrite variance_value.
have N := total_max.
rewrite (nth_map 0) ?size_takel ?Sd // nth_take // Es mulf_eq0 invr_eq0 (negbTE N) orbF.
case: eqP => // nz. rewrite variance_value //. congr (Some _). rewrite div1r invfM invrK.
by rewrite [_^-1 * total _]mulrC mulrA divfK // mulrC mulrA.
Qed.

Lemma pv_range (i : 'I_n.+1) : (forall i l, 0 <= W i l ord0) ->
  (forall j v, nth None (at_ i).1.1 j = Some v -> 0 <= v <= 100%:R) /\
  (\sum_(j < K) odflt 0 (nth None (at_ i).1.1 j) <= 100%:R).
Proof.
move=> W0.
have [K0 [_ H]] := pca_ok E. have [a [[d [V [_ ES Sd KP Ea]]] Er]] := H i. move: (shape) => [_ [_ /(_ i) [S1 _]]].
have S0 u : 0 <= score_variation x (W i) u.
  by apply: sumr_ge0 => l _; apply: mulr_ge0; [exact: W0|exact: sqr_ge0].
have B0 : 0 <= variation x (W i).
  by apply: sumr_ge0 => l _; apply: mulr_ge0; [exact: W0|apply: sumr_ge0 => c _; exact: sqr_ge0].
have LO (j : 'I_K) : nth 0 (at_ i).2 j = col (widen_ord KP j) V.
  rewrite Er Ea; cbn [fst snd]. by rewrite (@loading_of V (widen_ord KP j)) /=.
have SM : \sum_(j < K) score_variation x (W i) (nth 0 (at_ i).2 j) <= variation x (W i).
  rewrite (variation_sum contract (RT i) ES).
  under eq_bigr do rewrite LO (score_col contract (RT i) ES) /=.
  rewrite -!(big_mkord xpredT (fun l => nth 0 d l ^+ 2)) (big_cat_nat _ _ _ (leq0n K) KP) /= ler_addl.
  by apply: sumr_ge0 => l _; apply: sqr_ge0.
case: (altP (variation x (W i) =P 0)) => [Z|N].
  have PN j : nth None (at_ i).1.1 j = None.
    case: (ltnP j K) => jk; first by rewrite (pv_value i jk) Z eqxx. by rewrite nth_default // S1.
  split=> [j v|]; first by rewrite PN. by rewrite big1 ?ler0n // => j _; rewrite PN.
have VP : 0 < variation x (W i) by rewrite lt_def N B0.
split.
  move=> j v. case: (ltnP j K) => jk; last by rewrite nth_default // S1.
  rewrite (pv_value i jk) (negbTE N) => - [<-]. apply/andP; split.
    by rewrite divr_ge0 // mulr_ge0 // ler0n.
  rewrite ler_pdivr_mulr // ler_wpmul2l ?ler0n //. apply: le_trans SM.
  by rewrite (bigD1 (Ordinal jk)) //= ler_addl; apply: sumr_ge0 => l _; exact: S0.
under eq_bigr => j _ do rewrite (pv_value i (ltn_ord j)) (negbTE N) /=.
by rewrite -mulr_suml -mulr_sumr ler_pdivr_mulr // ler_wpmul2l ?ler0n.
Qed.

Lemma sdev_value (i : 'I_n.+1) (j : nat) : (j < K)%N -> let v := nth 0 (at_ i).2 j in
  let var := score_variation x (W i) v / total (W ord_max) in
  sq var ^+ 2 = var -> nth 0 (at_ i).1.2 j ^+ 2 = var.
Proof.
move=> JK. have [K0 [_ H]] := pca_ok E. have [a [[d [V [_ ES Sd KP ->]]] ->]] := H i. cbn [fst snd]. cbv zeta.
have JP : (j < p)%N := leq_trans JK KP.
rewrite -[j]/(nat_of_ord (Ordinal JP)) loading_of //= (score_col contract (RT i) ES) last_total /sdev_row.
by rewrite (nth_map 0) ?Sd // variance_value.
Qed.
End R.

Section T.
Variables (F : realFieldType) (n p : nat).
Variable sq : F -> F.
Variable svd : 'M[F]_(n, p) -> option (seq F * 'M[F]_p).
Hypothesis contract : svd_contract svd.
Variables (K : nat) (x : 'M[F]_(n, p)) (W : 'I_n -> 'cV[F]_n).
Lemma pca_total : (0 < K <= p)%N -> (p <= n)%N ->
  (forall i, total (W i) != 0 /\ svd (centred sq x (W i)) <> None) -> exists r, pca sq svd K x W = Ok r.
Proof.
move=> /andP [K0 KP] PN H. rewrite /pca.
suff [r ->] : exists r, pca_all sq svd K x W (enum 'I_n) = Ok r by rewrite (negbTE (_ : K != 0%N)) -?lt0n //; eexists.
elim: (enum 'I_n) => [|i s [t IH]]; first by exists [::].
have [T S] := H i. rewrite /= {1}/pca_at /wpca (negbTE T). case ES: (svd _) S => [[d V]|] // _.
have [_ -> _ _] := contract ES. rewrite (minn_idPr PN) eqxx KP IH. by eexists.
Qed.
Lemma pca_throws : (0 < n)%N -> (K == 0%N) || (p < K)%N || (n < p)%N -> pca sq svd K x W = Throw.
Proof.
move=> N B. case E: (pca _ _ _ _ _) => [r| |] //.
  exfalso. have [K0 [_ H]] := pca_ok E. have [a [[d [V [_ ES Sd KP _]]] _]] := H (Ordinal N).
  have [_ Sm _ _] := contract ES. rewrite Sd in Sm.
  have PN : (p <= n)%N by rewrite Sm geq_minl.
  by move: B; rewrite -leqn0 (leqNgt K) K0 ltnNge KP ltnNge PN.
exfalso. move: E. rewrite /pca.
suff U : pca_all sq svd K x W (enum 'I_n) <> UB by case: (pca_all _ _ _ _ _ _) U => [r| |] //; case: (K == 0%N).
elim: (enum 'I_n) => [|i s IH] //=. rewrite {1}/pca_at. case: (wpca _ _ _ _) => [[d V]|].
  case: (size d == p) => //. case: (K <= p)%N => //. by case: (pca_all _ _ _ _ _ _) IH.
case: (p == 0)%N => //. case: (K == 0)%N => //. by case: (pca_all _ _ _ _ _ _) IH.
Qed.
End T.

Lemma index_max_ok (F : realFieldType) p (v : 'cV[F]_p) j : index_max v = Some j -> forall l, v l ord0 <= v j ord0.
Proof.
rewrite /index_max. set f := (X in foldl X).
suff H : forall s b, (forall j, foldl f b s = Some j ->
    (forall l, l \in s -> v l ord0 <= v j ord0) /\ (forall b', b = Some b' -> v b' ord0 <= v j ord0)).
  move=> /H [A _] l. apply: A. by rewrite mem_enum.
elim=> [|i s IH] b j' /=; first by move=> ->; split=> // b' [->].
move=> /IH [A B]. rewrite /f in B. split.
  move=> l. rewrite inE => /orP [/eqP ->|]; last exact: A.
  case: b B => [b|] B; last exact: B. move: B. case: ltP => [_ B|ib B]; first exact: B.
  exact: le_trans ib (B _ erefl).
move=> b' Eb. rewrite Eb in B. move: B. case: ltP => [bi B|_ B]; last exact: B.
exact: le_trans (ltW bi) (B _ erefl).
Qed.
