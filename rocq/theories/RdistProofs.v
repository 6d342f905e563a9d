(** Rounded distances. *)
From Coq Require Import Reals Bool List ZArith Lra Lia.
From Verif Require Import Outcome XReal XRealFacts KernelModel KernelSpec RoundModel RoundSpec RoundProofs RoundMain RoundAcc RdistModel RdistSpec.
Import ListNotations.
Local Open Scope R_scope.

Section Round.
Variables (rn : R -> R) (big : R).
Hypothesis RN : rounding rn big.

(** The value in terms of the coordinate differences. *)
Definition RD (a b : R) : R := rn (sqrt (rn (rn (rn a * rn a) + rn (rn b * rn b)))).

Lemma sqrt_bnd k r : 0 <= r -> bnd (k + k) r -> bnd k (sqrt r).
Proof.
  intros P B. unfold bnd in *. rewrite Rabs_right in B by lra. rewrite Rabs_right by (apply Rle_ge, sqrt_pos).
  rewrite p2_add in B. assert (Q := p2_pos k). apply Rle_trans with (sqrt (p2 k * p2 k)); [apply sqrt_le_1; nra|].
  rewrite sqrt_square; lra.
Qed.
Lemma RD_nonneg a b : 0 <= RD a b.
Proof. apply (pos rn big RN). apply sqrt_pos. Qed.
Lemma sq_nonneg a : 0 <= rn (a * a).
Proof. apply (pos rn big RN). nra. Qed.
Lemma r_val xo xp o p : at_point xo o -> at_point xp p -> placed o -> placed p ->
  xval (r_euclid rn big xo xp) = Some (RD (fst p - fst o) (snd p - snd o)).
Proof.
  intros [O1 O2] [P1 P2] [A1 A2] [B1 B2]. unfold r_euclid, rsqrt, RD. cbv zeta.
  assert (D1 : bnd 401 (fst p - fst o)) by (apply (bnd_sub 400); assumption).
  assert (D2 : bnd 401 (snd p - snd o)) by (apply (bnd_sub 400); assumption).
  assert (E1 := rbnd rn big RN 401 _ ltac:(lia) D1). assert (E2 := rbnd rn big RN 401 _ ltac:(lia) D2).
  assert (S1 := bnd_mul _ _ _ _ E1 E1). assert (S2 := bnd_mul _ _ _ _ E2 E2). change (401 + 401)%Z with 802%Z in *.
  assert (T1 := rbnd rn big RN 802 _ ltac:(lia) S1). assert (T2 := rbnd rn big RN 802 _ ltac:(lia) S2).
  assert (S := bnd_add _ _ _ T1 T2). change (802 + 1)%Z with 803%Z in S. assert (S' := bnd_le _ 804 _ S ltac:(lia)).
  assert (T := rbnd rn big RN 804 _ ltac:(lia) S').
  assert (N1 := sq_nonneg (rn (fst p - fst o))). assert (N2 := sq_nonneg (rn (snd p - snd o))).
  assert (N : 0 <= rn (rn (rn (fst p - fst o) * rn (fst p - fst o)) + rn (rn (snd p - snd o) * rn (snd p - snd o)))) by (apply (pos rn big RN); lra).
  apply (rd_val rn big RN 402); [lia| |apply sqrt_bnd; auto].
  apply xval_xsqrt; auto.
  apply (v_add rn big RN 804); [lia| | |auto]; apply (v_mul rn big RN 802); try lia; auto; apply (v_sub rn big RN 401); auto; lia.
Qed.

Lemma RD_zero : RD 0 0 = 0.
Proof. unfold RD. rewrite !(zero rn big RN), Rmult_0_l, !(zero rn big RN), Rplus_0_l, !(zero rn big RN), sqrt_0. apply (zero rn big RN). Qed.
Lemma rnd_low k a : (-1000 <= k <= 1000)%Z -> p2 k <= Rabs a -> p2 k <= Rabs (rn a).
Proof.
  intros K L. unfold Rabs in L. destruct (Rcase_abs a).
  - assert (H : rn a <= rn (- p2 k)) by (apply (mono rn big RN); lra). rewrite (npow rn big RN) in H by auto. assert (P := p2_pos k).
    rewrite Rabs_left; lra.
  - apply (ge rn big RN) in L; auto. rewrite Rabs_right; [exact L|]. assert (P := p2_pos k). lra.
Qed.
Lemma sq_low' k a : (-500 <= k <= 500)%Z -> p2 k <= Rabs a -> p2 (k + k) <= rn (rn a * rn a).
Proof.
  intros K L. apply (rnd_low k) in L; [|lia]. apply (ge rn big RN); [lia|]. rewrite p2_add. assert (P := p2_pos k).
  replace (rn a * rn a) with (Rabs (rn a) * Rabs (rn a)); [nra|]. rewrite <- Rabs_mult. apply Rabs_right. nra.
Qed.
Lemma RD_low k a b : (-500 <= k <= 500)%Z -> p2 k <= Rabs a \/ p2 k <= Rabs b -> p2 k <= RD a b.
Proof.
  intros K L. assert (N1 := sq_nonneg (rn a)). assert (N2 := sq_nonneg (rn b)). assert (P := p2_pos k).
  assert (S : p2 (k + k) <= rn (rn (rn a * rn a) + rn (rn b * rn b))).
  { apply (ge rn big RN); [lia|]. destruct L as [L|L]; apply sq_low' in L; auto; lra. }
  apply (ge rn big RN); [lia|]. rewrite p2_add in S. rewrite <- (sqrt_square (p2 k)) by lra. apply sqrt_le_1; nra.
Qed.

(** Coincident and distinct points. *)
Lemma zero_main xo xp o p : at_point xo o -> at_point xp p -> placed o -> placed p ->
  exists d, xval (r_euclid rn big xo xp) = Some d /\ 0 <= d /\ (p = o -> d = 0) /\ (separated o p -> p <> o -> p2 (-400) <= d).
Proof.
  intros O P A B. eexists. split; [apply r_val; eauto|]. split; [apply RD_nonneg|]. split.
  - intros ->. rewrite !Rminus_diag_eq by reflexivity. apply RD_zero.
  - intros [S1 S2] N. apply RD_low; [lia|]. destruct S1 as [S1|S1]; [|auto]. destruct S2 as [S2|S2]; [|auto].
    exfalso. apply N. destruct o, p; cbn in *; congruence.
Qed.

(** Symmetry and monotonicity in the coordinate differences. *)
Hypothesis OD : odd rn.
Lemma RD_opp a b : RD (- a) (- b) = RD a b.
Proof. unfold RD. rewrite !OD. do 4 f_equal; f_equal; ring. Qed.
Lemma sym_main xo xp o p : at_point xo o -> at_point xp p -> placed o -> placed p ->
  xval (r_euclid rn big xo xp) = xval (r_euclid rn big xp xo).
Proof.
  intros O P A B. rewrite (r_val xo xp o p), (r_val xp xo p o) by auto. f_equal. rewrite <- RD_opp. f_equal; ring.
Qed.
Lemma rn_abs a : Rabs (rn a) = rn (Rabs a).
Proof.
  unfold Rabs at 2. destruct (Rcase_abs a).
  - rewrite OD. apply Rabs_left1. apply (neg rn big RN). lra.
  - apply Rabs_right. apply Rle_ge, (pos rn big RN). lra.
Qed.
Lemma sq_mono a a' : Rabs a <= Rabs a' -> rn (rn a * rn a) <= rn (rn a' * rn a').
Proof.
  intros L. apply (mono rn big RN). assert (H : Rabs (rn a) <= Rabs (rn a')) by (rewrite !rn_abs; apply (mono rn big RN); auto).
  apply Rsqr_le_abs_1 in H. exact H.
Qed.
Lemma RD_mono a b a' b' : Rabs a <= Rabs a' -> Rabs b <= Rabs b' -> RD a b <= RD a' b'.
Proof.
  intros A B. apply sq_mono in A, B. assert (N1 := sq_nonneg (rn a)). assert (N2 := sq_nonneg (rn b)).
  apply (mono rn big RN). apply sqrt_le_1_alt. apply (mono rn big RN). lra.
Qed.
Lemma mono_main xo xp xq o p q : at_point xo o -> at_point xp p -> at_point xq q -> placed o -> placed p -> placed q ->
  Rabs (fst p - fst o) <= Rabs (fst q - fst o) -> Rabs (snd p - snd o) <= Rabs (snd q - snd o) ->
  exists d d', xval (r_euclid rn big xo xp) = Some d /\ xval (r_euclid rn big xo xq) = Some d' /\ d <= d'.
Proof.
  intros O P Q A B C H1 H2. do 2 eexists. split; [apply r_val; eauto|]. split; [apply r_val; eauto|]. apply RD_mono; auto.
Qed.
End Round.

(** Accuracy. *)
Section Acc.
Variables (rn : R -> R) (big : R).
Hypothesis RN : rounding rn big.
Hypothesis FA : faithful rn.
Hypothesis OD : odd rn.

Lemma rel_sqrt j x y : 0 <= x -> 0 <= y -> rel (j + j) x y -> rel j (sqrt x) (sqrt y).
Proof.
  intros X Y [A B]. rewrite pow_add in A, B. assert (P := pw_range j). set (c := (1 - e) ^ j) in *.
  assert (H : forall u, 0 <= u -> sqrt u * c = sqrt (u * (c * c))) by (intros u U; rewrite sqrt_mult, sqrt_square; nra).
  split; rewrite H by auto; apply sqrt_le_1_alt; assumption.
Qed.
Lemma rel_add j x y z w : rel j x y -> rel j z w -> rel j (x + z) (y + w).
Proof. intros [A B] [C D]. split; lra. Qed.
Lemma sq_rel k a : (-400 <= k)%Z -> p2 k <= Rabs a -> rel 3 (rn (rn a * rn a)) (a * a).
Proof.
  intros K L. assert (Q : p2 (-400) <= p2 k) by (apply p2_le; auto).
  assert (L' := rnd_low rn big RN (-400) a ltac:(lia) ltac:(lra)).
  assert (E : rn a * rn a = rn (Rabs a) * rn (Rabs a)).
  { rewrite <- (rn_abs rn big RN OD). rewrite <- Rabs_mult. symmetry. apply Rabs_right. nra. }
  assert (E' : a * a = Rabs a * Rabs a) by (rewrite <- Rabs_mult; symmetry; apply Rabs_right; nra).
  rewrite E, E'. rewrite (rn_abs rn big RN OD) in L'. set (u := Rabs a) in *. assert (P := p2_pos (-400)).
  assert (R1 : rel 1 (rn u) u). { apply (round_rel rn FA). apply Rle_trans with (p2 (-400)); [apply p2_le; lia|lra]. }
  apply (round_relj rn FA 2); [|nra|].
  - apply Rle_trans with (p2 (-400 + -400)); [apply p2_le; lia|]. rewrite p2_add. nra.
  - apply (rel_mul 1 1); auto; lra.
Qed.
Lemma sq_rel0 a : a = 0 \/ p2 (-400) <= Rabs a -> rel 3 (rn (rn a * rn a)) (a * a).
Proof.
  intros [->|L].
  - rewrite (zero rn big RN), !Rmult_0_l, (zero rn big RN). apply (rel_le 0); try lia; try lra. apply rel_refl.
  - apply (sq_rel (-400)); auto. lia.
Qed.
Lemma RD_rel a b : a = 0 \/ p2 (-400) <= Rabs a -> b = 0 \/ p2 (-400) <= Rabs b -> rel 3 (RD rn a b) (sqrt (a ^ 2 + b ^ 2)).
Proof.
  intros A B. destruct (Req_dec (a * a + b * b) 0) as [Z|Z].
  { assert (a = 0) by nra. assert (b = 0) by nra. subst. rewrite (RD_zero rn big RN). replace (0 ^ 2 + 0 ^ 2) with 0 by ring. rewrite sqrt_0.
    apply (rel_le 0); try lia; try lra. apply rel_refl. }
  assert (N1 := sq_nonneg rn big RN (rn a)). assert (N2 := sq_nonneg rn big RN (rn b)). assert (P := p2_pos (-400)).
  assert (S : rel 3 (rn (rn a * rn a) + rn (rn b * rn b)) (a * a + b * b)) by (apply rel_add; apply sq_rel0; auto).
  assert (L : p2 (-800) <= rn (rn a * rn a) + rn (rn b * rn b)).
  { destruct A as [A|A]; [destruct B as [B|B]; [subst; exfalso; apply Z; ring|]|].
    - apply (sq_low' rn big RN (-400)) in B; [|lia]. change (-400 + -400)%Z with (-800)%Z in B. lra.
    - apply (sq_low' rn big RN (-400)) in A; [|lia]. change (-400 + -400)%Z with (-800)%Z in A. lra. }
  assert (L' : p2 (-800) <= rn (rn (rn a * rn a) + rn (rn b * rn b))) by (apply (ge rn big RN); auto; lia).
  assert (P' := p2_pos (-800)).
  replace (a ^ 2 + b ^ 2) with (a * a + b * b) by ring.
  apply (round_relj rn FA 2); [|apply sqrt_pos|].
  - apply Rle_trans with (p2 (-400)); [apply p2_le; lia|]. rewrite <- (sqrt_square (p2 (-400))) by lra. apply sqrt_le_1_alt.
    rewrite <- p2_add. exact L'.
  - apply rel_sqrt; [lra|nra|]. apply (round_relj rn FA 3); auto; [|nra]. apply Rle_trans with (p2 (-800)); auto. apply p2_le; lia.
Qed.
Lemma planar_eq o p : planar o p = sqrt ((fst p - fst o) ^ 2 + (snd p - snd o) ^ 2).
Proof. reflexivity. Qed.
Lemma sep_rel o p : separated o p -> rel 3 (RD rn (fst p - fst o) (snd p - snd o)) (planar o p).
Proof. intros [A B]. apply RD_rel; [destruct A as [->|A]|destruct B as [->|B]]; auto; left; ring. Qed.
Lemma acc_main xo xp o p : at_point xo o -> at_point xp p -> placed o -> placed p -> separated o p ->
  exists d, xval (r_euclid rn big xo xp) = Some d /\ Rabs (d - planar o p) <= p2 (-50) * planar o p.
Proof.
  intros O P A B S. eexists. split; [apply (r_val rn big RN); eauto|].
  assert (N := sqrt_pos ((fst p - fst o) ^ 2 + (snd p - snd o) ^ 2)). rewrite <- planar_eq in N.
  eapply Rle_trans; [apply (rel_abs 3); [lia|apply (RD_nonneg rn big RN)|exact N|apply sep_rel; auto]|].
  replace (INR 3 + 1) with (p2 2) by (unfold p2; simpl; lra). unfold e. rewrite <- p2_add. change (2 + -52)%Z with (-50)%Z.
  apply Rmult_le_compat_l; [left; apply p2_pos|apply Rmin_r].
Qed.
End Acc.
