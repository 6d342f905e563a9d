From mathcomp Require Import all_ssreflect all_algebra.
From Verif Require Import Outcome PcaModel PcaSpec PcaProofs.
Set Implicit Arguments. Unset Strict Implicit. Unset Printing Implicit Defensive.
Import Order.TTheory GRing.Theory Num.Theory.
Local Open Scope ring_scope.

(** Roots of the numbers that occur. *)
Definition rt (a : rat) : rat :=
  if a == 9%:R then 3%:R else if a == 16%:R then 4%:R else if a == 25%:R then 5%:R
  else if a == 36%:R then 6%:R else if a == 64%:R then 8%:R else if a == 100%:R then 10%:R
  else if a == 144%:R / 25%:R then 12%:R / 5%:R else if a == 576%:R / 25%:R then 24%:R / 5%:R
  else if a == 144%:R / 625%:R then 12%:R / 25%:R else if a == 144%:R / 2500%:R then 6%:R / 25%:R
  else if a == 576%:R / 2500%:R then 12%:R / 25%:R else 0.

Definition px : 'cV[rat]_2 := \col_i (if i == ord0 then 1 else 0).
Definition pw (s : rat) : 'cV[rat]_2 := \col_i (if i == ord0 then 9%:R * s else 16%:R * s).
(** The weights of the second location are [s] times those of the first. *)
Definition pW (s : rat) (i : 'I_2) : 'cV[rat]_2 := if i == ord0 then pw 1 else pw s.

Definition svd1 (A : 'M[rat]_(2, 1)) : option (seq rat * 'M[rat]_1) :=
  let r := rt ((A^T *m A) ord0 ord0) in
  if (0 <= r) && (r ^+ 2 == (A^T *m A) ord0 ord0) then Some ([:: r], 1%:M) else None.
Lemma svd1_ok : svd_contract svd1.
Proof.
move=> A d V. rewrite /svd1. case: andP => // - [r0 /eqP Er] [<- <-]. split=> //.
- by rewrite trmx1 mul1mx.
- by move=> [|i] [|j] //=; rewrite ?nth_nil ?lexx ?r0 // nth_nil ?lexx.
- rewrite mulmx1 mul1mx. apply/matrixP => i j. by rewrite !ord1 [RHS]mxE eqxx Er.
Qed.

Lemma pw_total s : total (pw s) = 25%:R * s.
Proof. by rewrite /total !big_ord_recl big_ord0 !mxE /= addr0 -mulrDl -natrD. Qed.
Lemma p_roots s : s = 1 \/ s = 4%:R -> (forall i l, rt (pW s i l ord0) ^+ 2 = pW s i l ord0) /\
  rt (total (pW s ord_max)) ^+ 2 = total (pW s ord_max).
Proof.
move=> [-> | ->]; (split; last by rewrite /pW /= pw_total; apply/eqP; vm_compute);
move=> [[|[|//]] i] [[|[|//]] l]; rewrite /pW mxE /=; by apply/eqP; vm_compute.
Qed.
Lemma p_square t : t = 1 \/ t = 4%:R -> ((centred rt px (pw t))^T *m centred rt px (pw t)) ord0 ord0 = 144%:R / 25%:R * t.
Proof.
move=> Ht. rewrite mxE !big_ord_recl big_ord0 !mxE !big_ord_recl !big_ord0 !mxE pw_total.
by case: Ht => ->; apply/eqP; vm_compute.
Qed.
Lemma p_svd s i : s = 1 \/ s = 4%:R -> total (pW s i) != 0 /\ svd1 (centred rt px (pW s i)) <> None.
Proof.
move=> Hs. split.
  rewrite /pW. by case: Hs => ->; case: ifP => _; rewrite pw_total.
suff [q [Eq [q0 q1]]] : exists q, ((centred rt px (pW s i))^T *m centred rt px (pW s i)) ord0 ord0 = q /\ 0 <= rt q /\ rt q ^+ 2 == q.
  by rewrite /svd1 Eq q0 q1.
have C := p_square.
rewrite /pW. case: Hs => ->; case: (i == ord0); rewrite C; try (by left); try (by right); eexists; (split; [reflexivity|split]); by vm_compute.
Qed.
Lemma p_run s : s = 1 \/ s = 4%:R -> exists r, pca rt svd1 1 px (pW s) = Ok r.
Proof. move=> Hs. apply: (pca_total svd1_ok) => // i. exact: p_svd. Qed.

Lemma pw0 s i l : s = 1 \/ s = 4%:R -> 0 <= pW s i l ord0.
Proof. by case=> ->; rewrite /pW; case: ifP => _; rewrite mxE; case: ifP. Qed.

Lemma p_sdev s r : s = 1 \/ s = 4%:R -> pca rt svd1 1 px (pW s) = Ok r ->
  nth 0 (nth (row0 _ 1) r 0).1.2 0 = if s == 1 then 12%:R / 25%:R else 6%:R / 25%:R.
Proof.
move=> Hs E. have [_ [_ H]] := pca_ok E. have [a [[d [V [_ ES _ _ Ea]]] Er]] := H ord0.
move: Er. rewrite Ea last_total. cbn [fst snd]. rewrite -[nat_of_ord ord0]/0%N => ->. cbn [fst snd].
have Ed : d = [:: 12%:R / 5%:R].
  move: ES. rewrite -[pW s ord0]/(pw 1) /svd1 p_square; last by left.
  have -> : (0 <= rt (144%:R / 25%:R * 1)) && (rt (144%:R / 25%:R * 1) ^+ 2 == 144%:R / 25%:R * 1) by vm_compute.
  move=> Ed. have Rt : rt (144%:R / 25%:R * 1) = 12%:R / 5%:R by apply/eqP; vm_compute.
  by rewrite Rt in Ed; inversion Ed.
rewrite Ed /sdev_row -[pW s ord_max]/(pw s) pw_total; cbn [map nth]; rewrite /variance. by case: Hs => ->; apply/eqP; vm_compute.
Qed.

(** Two variables, the second constant; the first right singular vector has either sign. *)
Definition p2x : 'M[rat]_2 := \matrix_(i, c) (if (i == ord0) && (c == ord0) then 1 else 0).
Definition sgnV (s : rat) : 'M[rat]_2 := \matrix_(i, j) (if i == j then (if i == ord0 then s else 1) else 0).
Definition diag2 : 'M[rat]_2 := \matrix_(i, j) (if i == j then nth 0 [:: 12%:R / 5%:R; 0] i ^+ 2 else 0).
Definition svd2 (s : rat) (A : 'M[rat]_(2, 2)) : option (seq rat * 'M[rat]_2) :=
  if A^T *m A == diag2 then Some ([:: 12%:R / 5%:R; 0], sgnV s) else None.
Lemma svd2_ok s : s = 1 \/ s = -1 -> svd_contract (svd2 s).
Proof.
move=> Hs A d V. rewrite /svd2. case: eqP => // EA [<- <-]. split=> //.
- apply/matrixP => i j. rewrite mxE !big_ord_recl big_ord0 !mxE.
  by case: Hs => ->; case: i => [[|[|//]] i]; case: j => [[|[|//]] j]; apply/eqP; vm_compute.
- by move=> [|[|i]] [|[|j]] //=; rewrite ?nth_nil ?lexx //; vm_compute.
- rewrite EA. apply/matrixP => i j. rewrite !mxE !big_ord_recl !big_ord0 !mxE.
  by case: Hs => ->; case: i => [[|[|//]] i]; case: j => [[|[|//]] j]; apply/eqP; vm_compute.
Qed.
Lemma p2_square : (centred rt p2x (pw 1))^T *m centred rt p2x (pw 1) = diag2.
Proof.
apply/matrixP => i j. rewrite mxE !big_ord_recl big_ord0 !mxE !big_ord_recl !big_ord0 !mxE pw_total.
by case: i => [[|[|//]] i]; case: j => [[|[|//]] j]; apply/eqP; vm_compute.
Qed.
Lemma p2_run s : s = 1 \/ s = -1 -> exists r, pca rt (svd2 s) 1 p2x (pW 1) = Ok r /\
  forall i : 'I_2, nth 0 (nth (row0 _ 2) r i).2 0 = col ord0 (sgnV s).
Proof.
move=> Hs. have W1 i : pW 1 i = pw 1 by rewrite /pW; case: ifP.
have [r E] : exists r, pca rt (svd2 s) 1 p2x (pW 1) = Ok r.
  apply: (pca_total (svd2_ok Hs)) => // i. by rewrite W1 pw_total /svd2 p2_square eqxx.
exists r. split=> // i. have [_ [_ H]] := pca_ok E. have [a [[d [V [_ ES _ _ ->]]] ->]] := H i. cbn [fst snd].
move: ES. rewrite W1 /svd2 p2_square eqxx => - [_ <-]. rewrite -[0%N]/(nat_of_ord (ord0 : 'I_2)). exact: loading_of.
Qed.
Lemma p2_winner s : s = 1 \/ s = -1 -> index_max (col ord0 (sgnV s)) = Some (if s == 1 then ord0 else ord_max).
Proof.
move=> Hs. have En : enum 'I_2 = [:: ord0; ord_max].
  apply: (inj_map val_inj). by rewrite val_enum_ord.
rewrite /index_max En /= !mxE. by case: Hs => ->.
Qed.

Lemma p_own : pW 1 ord0 = pW 4%:R ord0 /\ exists r r',
  pca rt svd1 1 px (pW 1) = Ok r /\ pca rt svd1 1 px (pW 4%:R) = Ok r' /\
  nth 0 (nth (row0 _ 1) r 0).1.2 0 = 12%:R / 25%:R /\ nth 0 (nth (row0 _ 1) r' 0).1.2 0 = 6%:R / 25%:R.
Proof.
split; first by []. have [r E] := p_run (or_introl erefl). have [r' E'] := p_run (or_intror erefl).
exists r, r'. split; first exact: E. split; first exact: E'.
split; [exact: (p_sdev (or_introl erefl) E)|exact: (p_sdev (or_intror erefl) E')].
Qed.
Lemma p2_signs : svd_contract (svd2 1) /\ svd_contract (svd2 (-1)) /\ exists r r',
  pca rt (svd2 1) 1 p2x (pW 1) = Ok r /\ pca rt (svd2 (-1)) 1 p2x (pW 1) = Ok r' /\
  index_max (nth 0 (nth (row0 _ 2) r 0).2 0) = Some ord0 /\
  index_max (nth 0 (nth (row0 _ 2) r' 0).2 0) = Some ord_max /\
  (nth 0 (nth (row0 _ 2) r' 0).2 0) ord_max ord0 = 0 /\ (nth 0 (nth (row0 _ 2) r' 0).2 0) ord0 ord0 = -1.
Proof.
split; first by apply: svd2_ok; left. split; first by apply: svd2_ok; right.
have [r [E H]] := p2_run (or_introl erefl). have [r' [E' H']] := p2_run (or_intror erefl).
exists r, r'. split; first exact: E. split; first exact: E'.
rewrite (H ord0) (H' ord0). split; first exact: (p2_winner (or_introl erefl)). split; first exact: (p2_winner (or_intror erefl)).
by rewrite !mxE.
Qed.
