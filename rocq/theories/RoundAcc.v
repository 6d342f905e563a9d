(** Accuracy of the rounded weights. *)
From Coq Require Import Reals Bool List ZArith Lra Lia.
From Verif Require Import Outcome XReal XRealFacts RSort KernelModel KernelSpec KernelProofs RoundModel RoundSpec RoundProofs RoundMain.
Import ListNotations.
Local Open Scope R_scope.

Definition e : R := p2 (-52).
Lemma e_small : 0 < e <= / 1024.
Proof.
  split; [apply p2_pos|]. unfold e. apply Rle_trans with (p2 (-10)); [apply p2_le; lia|]. unfold p2. simpl. lra.
Qed.
(** Relative closeness of non-negative numbers, by j roundings. *)
Definition rel (j : nat) (x y : R) : Prop := y * (1 - e) ^ j <= x /\ x * (1 - e) ^ j <= y.
Lemma pw_range j : 0 < (1 - e) ^ j <= 1.
Proof. assert (E := e_small). induction j; [rewrite pow_O; lra|]. rewrite <- tech_pow_Rmult. destruct IHj. split; [apply Rmult_lt_0_compat; lra|nra]. Qed.
Lemma rel_sym j x y : rel j x y -> rel j y x.
Proof. intros [A B]. split; auto. Qed.
Lemma rel_refl x : rel 0 x x.
Proof. split; rewrite pow_O; lra. Qed.
Lemma rel_mul i j x y z w : 0 <= x -> 0 <= y -> 0 <= z -> 0 <= w -> rel i x y -> rel j z w -> rel (i + j) (x * z) (y * w).
Proof.
  intros X Y Z W [A B] [C D]. assert (P := pw_range i). assert (Q := pw_range j). unfold rel. rewrite pow_add. split.
  - replace (y * w * ((1 - e) ^ i * (1 - e) ^ j)) with ((y * (1 - e) ^ i) * (w * (1 - e) ^ j)) by ring. apply Rmult_le_compat; auto; apply Rmult_le_pos; lra.
  - replace (x * z * ((1 - e) ^ i * (1 - e) ^ j)) with ((x * (1 - e) ^ i) * (z * (1 - e) ^ j)) by ring. apply Rmult_le_compat; auto; apply Rmult_le_pos; lra.
Qed.
Lemma rel_inv j x y : 0 < x -> 0 < y -> rel j x y -> rel j (/ x) (/ y).
Proof.
  intros X Y [A B]. split.
  - apply Rmult_le_reg_l with (x * y); [apply Rmult_lt_0_compat; auto|]. replace (x * y * (/ y * (1 - e) ^ j)) with (x * (1 - e) ^ j) by (field; lra). replace (x * y * / x) with y by (field; lra). exact B.
  - apply Rmult_le_reg_l with (x * y); [apply Rmult_lt_0_compat; auto|]. replace (x * y * (/ x * (1 - e) ^ j)) with (y * (1 - e) ^ j) by (field; lra). replace (x * y * / y) with x by (field; lra). exact A.
Qed.
Lemma rel_div i j x y z w : 0 <= x -> 0 <= y -> 0 < z -> 0 < w -> rel i x y -> rel j z w -> rel (i + j) (x / z) (y / w).
Proof.
  intros X Y Z W A B. apply rel_mul; auto; try (left; apply Rinv_0_lt_compat; auto). apply rel_inv; auto.
Qed.
Lemma rel_trans i j x y z : rel i x y -> rel j y z -> rel (i + j) x z.
Proof.
  intros [A B] [C D]. assert (P := pw_range i). assert (Q := pw_range j). unfold rel. rewrite pow_add. split.
  - apply Rle_trans with (y * (1 - e) ^ i); auto. replace (z * ((1 - e) ^ i * (1 - e) ^ j)) with (z * (1 - e) ^ j * (1 - e) ^ i) by ring. apply Rmult_le_compat_r; lra.
  - apply Rle_trans with (y * (1 - e) ^ j); auto. replace (x * ((1 - e) ^ i * (1 - e) ^ j)) with (x * (1 - e) ^ i * (1 - e) ^ j) by ring. apply Rmult_le_compat_r; lra.
Qed.
Lemma rel_le i j x y : 0 <= x -> 0 <= y -> (i <= j)%nat -> rel i x y -> rel j x y.
Proof.
  intros X Y L [A B]. assert (P : (1 - e) ^ j <= (1 - e) ^ i).
  { replace j with (i + (j - i))%nat by lia. rewrite pow_add. assert (P := pw_range i). assert (Q := pw_range (j - i)). nra. }
  split; [apply Rle_trans with (y * (1 - e) ^ i)|apply Rle_trans with (x * (1 - e) ^ i)]; auto; apply Rmult_le_compat_l; auto.
Qed.
Lemma bern j : 1 - INR j * e <= (1 - e) ^ j.
Proof.
  assert (E := e_small). induction j; [rewrite pow_O; cbn [INR]; lra|]. rewrite S_INR. assert (P := pw_range j). assert (N := pos_INR j). rewrite <- tech_pow_Rmult.
  apply Rle_trans with ((1 - e) * (1 - INR j * e)); [|apply Rmult_le_compat_l; lra]. assert (0 <= INR j * e * e) by (apply Rmult_le_pos; [apply Rmult_le_pos|]; lra). lra.
Qed.
Lemma rel_up j x y : (j <= 25)%nat -> 0 <= x -> 0 <= y -> rel j x y -> x <= y + (INR j + 1) * e * y.
Proof.
  intros J X Y [A B]. assert (E := e_small). assert (P := bern j). assert (Q := pw_range j). assert (N : INR j <= 25) by (apply le_INR in J; rewrite (INR_IZR_INZ 25) in J; exact J). assert (N0 := pos_INR j).
  assert (F : (1 - e) ^ j * (1 + (INR j + 1) * e) >= 1).
  { assert (S : 0 <= (INR j + 1) * e) by (apply Rmult_le_pos; lra). assert ((1 - INR j * e) * (1 + (INR j + 1) * e) <= (1 - e) ^ j * (1 + (INR j + 1) * e)) by (apply Rmult_le_compat_r; lra).
    assert (G : INR j * (INR j + 1) * e <= 1). { apply Rle_trans with (25 * 26 * / 1024); [|lra]. apply Rmult_le_compat; try lra; [apply Rmult_le_pos; lra|apply Rmult_le_compat; lra]. }
    assert (0 <= e * (1 - INR j * (INR j + 1) * e)) by (apply Rmult_le_pos; lra). lra. }
  apply Rmult_le_reg_r with ((1 - e) ^ j); [lra|]. apply Rle_trans with y; auto.
  replace ((y + (INR j + 1) * e * y) * (1 - e) ^ j) with (y * ((1 - e) ^ j * (1 + (INR j + 1) * e))) by ring. rewrite <- (Rmult_1_r y) at 1. apply Rmult_le_compat_l; lra.
Qed.
Lemma rel_abs j x y : (j <= 25)%nat -> 0 <= x -> 0 <= y -> rel j x y -> Rabs (x - y) <= (INR j + 1) * e * Rmin x y.
Proof.
  intros J X Y H. assert (U := rel_up j x y J X Y H). assert (V := rel_up j y x J Y X (rel_sym _ _ _ H)). assert (N0 := pos_INR j). assert (E := e_small).
  assert (0 <= (INR j + 1) * e) by (apply Rmult_le_pos; lra). apply Rabs_le. unfold Rmin. destruct (Rle_dec x y); split; nra.
Qed.
Lemma clip j x y : (j <= 25)%nat -> 0 <= x -> 0 <= y -> rel j x y -> Rabs (Rmin 1 x - Rmin 1 y) <= (INR j + 1) * e.
Proof.
  intros J X Y H. assert (N0 := pos_INR j). assert (E := e_small). assert (S : 0 <= (INR j + 1) * e) by (apply Rmult_le_pos; lra).
  assert (A := rel_abs j x y J X Y H). destruct (Rle_dec 1 x) as [P|P].
  - rewrite (Rmin_left 1 x) by auto. destruct (Rle_dec 1 y) as [Q|Q]; [rewrite Rmin_left, Rminus_diag_eq, Rabs_R0 by auto; auto|]. rewrite (Rmin_right 1 y) by lra.
    rewrite (Rmin_right x y) in A by lra. assert (Q' := Rle_abs (x - y)). rewrite Rabs_right by lra. nra.
  - rewrite (Rmin_right 1 x) by lra. destruct (Rle_dec 1 y) as [Q|Q].
    + rewrite (Rmin_left 1 y) by lra. rewrite (Rmin_left x y) in A by lra. rewrite Rabs_left1 in * by lra. nra.
    + rewrite (Rmin_right 1 y) by lra. assert (Rmin x y <= 1) by (unfold Rmin; destruct (Rle_dec x y); lra). assert (0 <= Rmin x y) by (unfold Rmin; destruct (Rle_dec x y); lra). nra.
Qed.
Lemma exp_diff s t : 0 <= s -> 0 <= t -> s <= t -> exp (- s) - exp (- t) <= (t - s) * exp (- s).
Proof.
  intros S T L. replace (- t) with (- s + - (t - s)) by ring. rewrite exp_plus. assert (P := exp_pos (- s)).
  assert (1 - (t - s) <= exp (- (t - s))). { destruct (Req_dec (t - s) 0) as [->|N]; [rewrite Ropp_0, exp_0; lra|]. left. replace (1 - (t - s)) with (1 + - (t - s)) by ring. apply exp_ineq1. lra. }
  nra.
Qed.
Lemma s_exp s : 0 <= s -> s * exp (- s) <= 1.
Proof.
  intros S. assert (P := exp_pos (- s)). assert (E : exp (- s) * exp s = 1) by (rewrite <- exp_plus; replace (- s + s) with 0 by ring; apply exp_0).
  assert (s <= exp s). { destruct (Req_dec s 0) as [->|N]; [rewrite exp_0; lra|]. left. assert (H := exp_ineq1 s N). lra. }
  nra.
Qed.
Lemma exp_close j s t : (j <= 25)%nat -> 0 <= s -> 0 <= t -> rel j s t -> Rabs (exp (- s) - exp (- t)) <= (INR j + 1) * e.
Proof.
  intros J S T H. assert (A := rel_abs j s t J S T H). assert (N0 := pos_INR j). assert (E := e_small). assert (S0 : 0 <= (INR j + 1) * e) by (apply Rmult_le_pos; lra).
  destruct (Rle_dec s t) as [L|L].
  - assert (D := exp_diff s t S T L). assert (Q := s_exp s S). assert (P := exp_pos (- s)). rewrite Rabs_left1 in A by lra. rewrite Rmin_left in A by lra.
    assert (M : exp (- t) <= exp (- s)). { destruct L as [L| ->]; [left; apply exp_increasing; lra|lra]. } rewrite Rabs_right by lra.
    apply Rle_trans with ((t - s) * exp (- s)); auto. apply Rle_trans with ((INR j + 1) * e * s * exp (- s)); [apply Rmult_le_compat_r; lra|]. nra.
  - assert (D := exp_diff t s T S ltac:(lra)). assert (Q := s_exp t T). assert (P := exp_pos (- t)). rewrite Rabs_right in A by lra. rewrite Rmin_right in A by lra.
    assert (M : exp (- s) <= exp (- t)) by (left; apply exp_increasing; lra). rewrite Rabs_left1 by lra.
    apply Rle_trans with ((s - t) * exp (- t)); [lra|]. apply Rle_trans with ((INR j + 1) * e * t * exp (- t)); [apply Rmult_le_compat_r; lra|]. nra.
Qed.

Section Round.
Variables (rn : R -> R) (big : R) (fe : R -> R).
Hypothesis RN : rounding rn big.
Hypothesis FE : exponential fe.
Hypothesis FA : faithful rn.
Hypothesis EA : accurate_exp fe.

Lemma round_rel x : p2 (-1000) <= x -> rel 1 (rn x) x.
Proof.
  intros L. assert (E := e_small). assert (P := p2_pos (-1000)). assert (A := FA x). rewrite Rabs_right in A by lra. specialize (A L). fold e in A.
  assert (A1 := Rle_abs (rn x - x)). assert (A2 := Rle_abs (- (rn x - x))). rewrite Rabs_Ropp in A2. unfold rel. rewrite pow_1. split; [lra|].
  assert (rn x <= x + e * x) by lra. assert (0 <= e * e * x) by (apply Rmult_le_pos; [apply Rmult_le_pos|]; lra). assert (rn x * (1 - e) <= (x + e * x) * (1 - e)) by (apply Rmult_le_compat_r; lra). lra.
Qed.
Lemma round_relj j x y : p2 (-1000) <= x -> 0 <= y -> rel j x y -> rel (1 + j) (rn x) y.
Proof. intros L Y H. apply rel_trans with x; auto. apply round_rel. exact L. Qed.
Lemma round_abs x : 0 <= x <= 1 -> Rabs (rn x - x) <= e.
Proof.
  intros [X0 X1]. assert (E := e_small). destruct (Rle_dec (p2 (-1000)) x) as [L|L].
  - assert (A := FA x). rewrite (Rabs_right x) in A by lra. specialize (A L). fold e in A. nra.
  - assert (A := pos rn big RN x X0). assert (B : rn x <= p2 (-1000)) by (rewrite <- (pow rn big RN (-1000)) by lia; apply (mono rn big RN); lra).
    assert (p2 (-1000) <= e) by (apply p2_le; lia). apply Rabs_le. lra.
Qed.
Definition rng (d : R) : Prop := p2 (-50) <= d <= p2 100.
Lemma rng_pos d : rng d -> 0 < d.
Proof. intros [A _]. assert (P := p2_pos (-50)). lra. Qed.
Lemma sq2_rel d : rng d -> rel 1 (sq2 rn d) (d * d).
Proof. intros H. assert (P := rng_pos d H). destruct H as [A B]. apply round_rel. apply Rle_trans with (p2 (-50 + -50)); [apply p2_le; lia|]. rewrite p2_add. assert (Q := p2_pos (-50)). nra. Qed.
Lemma sq2_rng d : rng d -> p2 (-100) <= sq2 rn d <= p2 200.
Proof.
  intros H. assert (P := rng_pos d H). destruct H as [A B]. assert (Q := p2_pos (-50)). split.
  - apply (sq2_low rn big RN d (-50)); [lia|exact A].
  - unfold sq2. rewrite <- (pow rn big RN 200) by lia. apply (mono rn big RN). change 200%Z with (100 + 100)%Z. rewrite p2_add. nra.
Qed.
Lemma cu_rel d : rng d -> rel 2 (cu rn d) (d * d * d).
Proof.
  intros H. assert (P := rng_pos d H). assert (S := sq2_rng d H). assert (R0 := sq2_rel d H). destruct H as [A B]. assert (Q := p2_pos (-50)). assert (Q' := p2_pos (-100)). unfold cu. fold (sq2 rn d).
  apply (round_relj 1).
  - apply Rle_trans with (p2 (-100 + -50)); [apply p2_le; lia|]. rewrite p2_add. apply Rmult_le_compat; lra.
  - apply Rmult_le_pos; nra.
  - apply (rel_mul 1 0); try nra; auto. apply rel_refl.
Qed.
Lemma cu_rng d : rng d -> p2 (-150) <= cu rn d <= p2 300.
Proof.
  intros H. assert (P := rng_pos d H). assert (S := sq2_rng d H). destruct H as [A B]. assert (Q := p2_pos (-50)). assert (Q' := p2_pos (-100)). split.
  - apply (cu_low rn big RN d (-50)); [lia|lia|exact A].
  - unfold cu. fold (sq2 rn d). rewrite <- (pow rn big RN 300) by lia. apply (mono rn big RN). change 300%Z with (200 + 100)%Z. rewrite p2_add. apply Rmult_le_compat; lra.
Qed.
Lemma quot_low i j a c : p2 i <= a -> 0 < c <= p2 j -> (-1000 <= i - j)%Z -> p2 (-1000) <= a / c.
Proof.
  intros A [C0 C] IJ. apply Rle_trans with (p2 (i - j)); [apply p2_le; lia|]. rewrite p2_sub. assert (P := p2_pos i). assert (Q := p2_pos j).
  apply Rmult_le_compat; try lra; [left; apply Rinv_0_lt_compat; lra|apply Rinv_le_contravar; lra].
Qed.
(** The two quotients. *)
Lemma u2_rel m d h h' : rng d -> rng h -> rng h' -> rel m h' h -> rel (3 + (m + m)) (rn (sq2 rn d / sq2 rn h')) ((d / h) ^ 2).
Proof.
  intros D H H' M. assert (Pd := rng_pos d D). assert (Ph := rng_pos h H). assert (Ph' := rng_pos h' H'). assert (Sd := sq2_rng d D). assert (Sh := sq2_rng h' H'). assert (Q := p2_pos (-100)).
  replace ((d / h) ^ 2) with ((d * d) / (h * h)) by (field; lra).
  replace (3 + (m + m))%nat with (1 + (1 + (1 + (m + m))))%nat by lia. apply round_relj; [apply (quot_low (-100) 200); [lra|lra|lia]| |].
  - apply Rmult_le_pos; [nra|left; apply Rinv_0_lt_compat; nra].
  - apply rel_div; try nra; [apply sq2_rel; auto|]. apply rel_trans with (h' * h'); [apply sq2_rel; auto|]. apply rel_mul; try lra; auto.
Qed.
Lemma u3_rel m d h h' : rng d -> rng h -> rng h' -> rel m h' h -> rel (5 + (m + m + m)) (rn (cu rn d / cu rn h')) ((d / h) ^ 3).
Proof.
  intros D H H' M. assert (Pd := rng_pos d D). assert (Ph := rng_pos h H). assert (Ph' := rng_pos h' H'). assert (Sd := cu_rng d D). assert (Sh := cu_rng h' H'). assert (Q := p2_pos (-150)).
  assert (Hh : 0 < h * h * h) by (apply Rmult_lt_0_compat; nra). assert (Hh' : 0 < h' * h' * h') by (apply Rmult_lt_0_compat; nra). assert (Hd : 0 < d * d * d) by (apply Rmult_lt_0_compat; nra).
  replace ((d / h) ^ 3) with ((d * d * d) / (h * h * h)) by (field; lra).
  replace (5 + (m + m + m))%nat with (1 + (2 + (2 + (m + m + m))))%nat by lia. apply round_relj; [apply (quot_low (-150) 300); [lra|lra|lia]| |].
  - apply Rmult_le_pos; [lra|left; apply Rinv_0_lt_compat; lra].
  - apply rel_div; try lra; [apply cu_rel; auto|]. apply rel_trans with (h' * h' * h'); [apply cu_rel; auto|]. apply rel_mul; try nra; auto. apply rel_mul; try lra; auto.
Qed.
Lemma ratio_lt d h n : 0 < d -> 0 < h -> d < h -> (d / h) ^ S n < 1.
Proof.
  intros D H L. assert (A : 0 < d / h < 1). { split; [apply Rdiv_lt_0_compat; auto|]. apply Rmult_lt_reg_r with h; auto. unfold Rdiv. rewrite Rmult_assoc, Rinv_l; lra. }
  induction n; [rewrite pow_1; lra|]. rewrite <- tech_pow_Rmult. assert (0 <= (d / h) ^ S n) by (apply pow_le; lra). nra.
Qed.
Lemma ratio_ge d h n : 0 < h -> h <= d -> 1 <= (d / h) ^ n.
Proof. intros H L. apply pow_R1_Rle. apply Rmult_le_reg_r with h; auto. unfold Rdiv. rewrite Rmult_assoc, Rinv_l; lra. Qed.
Lemma quot_ge1 a c : c <= a -> 0 < c -> 1 <= rn (a / c).
Proof.
  intros A C. rewrite <- (one rn big RN). apply (mono rn big RN). apply Rmult_le_reg_r with c; auto. unfold Rdiv. rewrite Rmult_assoc, Rinv_l; lra.
Qed.
(** Powers of one minus a clipped quotient. *)
Lemma sq_close u t c : 0 <= u <= 1 -> 0 <= t <= 1 -> Rabs (u - t) <= c * e -> 0 <= c ->
  let q := rn (1 - u) in Rabs (rn (1 * rn (q * q)) - (1 - t) ^ 2) <= (2 * c + 4) * e.
Proof.
  intros U T C C0 q. assert (E := e_small). assert (Q : 0 <= q <= 1) by (apply (q_range rn big RN); auto). assert (A := round_abs (1 - u) ltac:(lra)). fold q in A.
  assert (B := round_abs (q * q) ltac:(split; nra)). assert (QQ : 0 <= rn (q * q) <= 1) by (apply (prod_range rn big RN); auto). assert (D := round_abs (1 * rn (q * q)) ltac:(lra)).
  assert (X : Rabs (q - (1 - t)) <= (c + 1) * e). { replace (q - (1 - t)) with ((q - (1 - u)) + - (u - t)) by ring. eapply Rle_trans; [apply Rabs_triang|]. rewrite Rabs_Ropp. lra. }
  assert (Y : Rabs (q * q - (1 - t) ^ 2) <= 2 * ((c + 1) * e)).
  { replace (q * q - (1 - t) ^ 2) with ((q + (1 - t)) * (q - (1 - t))) by ring. rewrite Rabs_mult. apply Rmult_le_compat; try apply Rabs_pos; auto. rewrite Rabs_right; lra. }
  replace (rn (1 * rn (q * q)) - (1 - t) ^ 2) with ((rn (1 * rn (q * q)) - 1 * rn (q * q)) + ((rn (q * q) - q * q) + (q * q - (1 - t) ^ 2))) by ring.
  eapply Rle_trans; [apply Rabs_triang|]. assert (Z := Rabs_triang (rn (q * q) - q * q) (q * q - (1 - t) ^ 2)). lra.
Qed.
Lemma cu_close u t c : 0 <= u <= 1 -> 0 <= t <= 1 -> Rabs (u - t) <= c * e -> 0 <= c ->
  let q := rn (1 - u) in Rabs (rn (1 * rn (rn (q * q) * q)) - (1 - t) ^ 3) <= (3 * c + 6) * e.
Proof.
  intros U T C C0 q. assert (E := e_small). assert (Q : 0 <= q <= 1) by (apply (q_range rn big RN); auto). assert (A := round_abs (1 - u) ltac:(lra)). fold q in A.
  assert (B := round_abs (q * q) ltac:(split; nra)). assert (QQ : 0 <= rn (q * q) <= 1) by (apply (prod_range rn big RN); auto).
  assert (QQQ : 0 <= rn (rn (q * q) * q) <= 1) by (apply (prod_range rn big RN); auto). assert (D := round_abs (1 * rn (rn (q * q) * q)) ltac:(lra)).
  assert (B3 := round_abs (rn (q * q) * q) ltac:(split; nra)).
  assert (X : Rabs (q - (1 - t)) <= (c + 1) * e). { replace (q - (1 - t)) with ((q - (1 - u)) + - (u - t)) by ring. eapply Rle_trans; [apply Rabs_triang|]. rewrite Rabs_Ropp. lra. }
  assert (Y : Rabs (q * q - (1 - t) ^ 2) <= 2 * ((c + 1) * e)).
  { replace (q * q - (1 - t) ^ 2) with ((q + (1 - t)) * (q - (1 - t))) by ring. rewrite Rabs_mult. apply Rmult_le_compat; try apply Rabs_pos; auto. rewrite Rabs_right; lra. }
  set (v := rn (q * q)) in *. set (w := rn (v * q)) in *. set (s := 1 - t) in *. assert (S0 : 0 <= s <= 1) by (unfold s; lra).
  assert (Y' : Rabs (v - s ^ 2) <= (2 * c + 3) * e). { replace (v - s ^ 2) with ((v - q * q) + (q * q - s ^ 2)) by ring. eapply Rle_trans; [apply Rabs_triang|]. lra. }
  assert (W : Rabs (v * q - s ^ 3) <= (2 * c + 3) * e + (c + 1) * e).
  { replace (v * q - s ^ 3) with ((v - s ^ 2) * q + s ^ 2 * (q - s)) by ring. eapply Rle_trans; [apply Rabs_triang|]. rewrite !Rabs_mult, (Rabs_right q), (Rabs_right (s ^ 2)) by nra.
    assert (G := Rabs_pos (v - s ^ 2)). assert (G' := Rabs_pos (q - s)). assert (0 <= s ^ 2 <= 1) by (split; nra). nra. }
  replace (rn (1 * w) - s ^ 3) with ((rn (1 * w) - 1 * w) + ((w - v * q) + (v * q - s ^ 3))) by ring.
  eapply Rle_trans; [apply Rabs_triang|]. assert (Z := Rabs_triang (w - v * q) (v * q - s ^ 3)). lra.
Qed.
Lemma round_rel_neg x : p2 (-1000) <= x -> rel 1 (- rn (- x)) x.
Proof.
  intros L. assert (E := e_small). assert (P := p2_pos (-1000)). assert (A := FA (- x)). rewrite Rabs_Ropp, Rabs_right in A by lra. specialize (A L). fold e in A.
  assert (A1 := Rle_abs (rn (- x) - - x)). assert (A2 := Rle_abs (- (rn (- x) - - x))). rewrite Rabs_Ropp in A2. unfold rel. rewrite pow_1. split; [lra|].
  assert (- rn (- x) <= x + e * x) by lra. assert (0 <= e * e * x) by (apply Rmult_le_pos; [apply Rmult_le_pos|]; lra). assert (- rn (- x) * (1 - e) <= (x + e * x) * (1 - e)) by (apply Rmult_le_compat_r; lra). lra.
Qed.
Lemma round_neg_low k x : (-1000 <= k <= 1000)%Z -> p2 k <= x -> p2 k <= - rn (- x).
Proof. intros H L. assert (rn (- x) <= - p2 k); [|lra]. rewrite <- (npow rn big RN k H). apply (mono rn big RN). lra. Qed.
Lemma fe_close j s t : (j <= 25)%nat -> 0 <= s -> 0 <= t -> rel j s t -> Rabs (fe (- s) - exp (- t)) <= (INR j + 2) * e.
Proof.
  intros J S T H. assert (A := exp_close j s t J S T H). assert (B := EA (- s) ltac:(lra)). fold e in B.
  replace (fe (- s) - exp (- t)) with ((fe (- s) - exp (- s)) + (exp (- s) - exp (- t))) by ring. eapply Rle_trans; [apply Rabs_triang|]. lra.
Qed.
Lemma gauss_close m d h h' : (m <= 5)%nat -> rng d -> rng h -> rng h' -> rel m h' h -> Rabs (RK rn fe Gaussian d h' - K Gaussian d h) <= (INR (4 + (m + m)) + 2) * e.
Proof.
  intros M5 D H H' M. assert (Pd := rng_pos d D). assert (Ph := rng_pos h H). assert (Ph' := rng_pos h' H'). assert (Sd := sq2_rng d D). assert (Sh := sq2_rng h' H'). assert (Q := p2_pos (-100)).
  cbn [RK K]. assert (T2 : p2 (-100 + 1) <= 2 * sq2 rn h') by (rewrite p2_add, p2_1; lra).
  set (y := - rn (-2 * sq2 rn h')). assert (Ey : rn (-2 * sq2 rn h') = - y) by (unfold y; lra). rewrite Ey.
  assert (Y1 : rel 1 y (2 * sq2 rn h')). { unfold y. replace (-2 * sq2 rn h') with (- (2 * sq2 rn h')) by ring. apply round_rel_neg. apply Rle_trans with (p2 (-100 + 1)); [apply p2_le; lia|exact T2]. }
  assert (Y2 : p2 (-100 + 1) <= y). { unfold y. replace (-2 * sq2 rn h') with (- (2 * sq2 rn h')) by ring. apply round_neg_low; [lia|exact T2]. }
  assert (Y3 : y <= p2 201). { enough (- p2 201 <= rn (-2 * sq2 rn h')) by lra. rewrite <- (npow rn big RN 201) by lia. apply (mono rn big RN). change 201%Z with (200 + 1)%Z. rewrite p2_add, p2_1. lra. }
  assert (PY := p2_pos (-100 + 1)).
  replace (sq2 rn d / - y) with (- (sq2 rn d / y)) by (field; lra).
  set (w := - rn (- (sq2 rn d / y))). replace (rn (- (sq2 rn d / y))) with (- w) by (unfold w; ring).
  replace (- ((d / h) ^ 2) / 2) with (- ((d * d) / (2 * (h * h)))) by (field; lra).
  assert (QL : p2 (-1000) <= sq2 rn d / y) by (apply (quot_low (-100) 201); [lra|lra|lia]).
  apply fe_close; [lia| | |].
  - assert (Z := round_neg_low (-1000) _ ltac:(lia) QL). fold w in Z. assert (P := p2_pos (-1000)). lra.
  - apply Rmult_le_pos; [nra|left; apply Rinv_0_lt_compat; nra].
  - replace (4 + (m + m))%nat with (1 + (1 + (1 + (0 + (1 + (m + m))))))%nat by lia. apply rel_trans with (sq2 rn d / y); [apply round_rel_neg; exact QL|].
    apply rel_div; try nra; [apply sq2_rel; auto|]. apply rel_trans with (2 * sq2 rn h'); auto. apply rel_mul; try nra; [apply rel_refl|].
    apply rel_trans with (h' * h'); [apply sq2_rel; auto|]. apply rel_mul; try lra; auto.
Qed.
Lemma expo_close m d h h' : (m <= 5)%nat -> rng d -> rng h -> rng h' -> rel m h' h -> Rabs (RK rn fe Exponential d h' - K Exponential d h) <= (INR (1 + m) + 2) * e.
Proof.
  intros M5 D H H' M. assert (Pd := rng_pos d D). assert (Ph := rng_pos h H). assert (Ph' := rng_pos h' H').
  cbn [RK K]. replace (- d / h') with (- (d / h')) by (field; lra). set (w := - rn (- (d / h'))). replace (rn (- (d / h'))) with (- w) by (unfold w; ring).
  assert (QL : p2 (-1000) <= d / h') by (apply (quot_low (-50) 100); [apply D|split; [auto|apply H']|lia]).
  apply fe_close; [lia| | |].
  - assert (Z := round_neg_low (-1000) _ ltac:(lia) QL). fold w in Z. assert (P := p2_pos (-1000)). lra.
  - apply Rmult_le_pos; [lra|left; apply Rinv_0_lt_compat; lra].
  - apply rel_trans with (d / h'); [apply round_rel_neg; exact QL|]. apply (rel_div 0 m); try lra; auto. apply rel_refl.
Qed.
Lemma bisq_close m d h h' : (m <= 5)%nat -> rng d -> rng h -> rng h' -> rel m h' h -> Rabs (RK rn fe Bisquare d h' - K Bisquare d h) <= (2 * (INR (3 + (m + m)) + 1) + 4) * e.
Proof.
  intros M5 D H H' M. assert (Pd := rng_pos d D). assert (Ph := rng_pos h H). assert (Ph' := rng_pos h' H'). assert (E := e_small).
  assert (U := u2_rel m d h h' D H H' M). assert (Sh : 0 < sq2 rn h') by (assert (S := sq2_rng h' H'); assert (Q := p2_pos (-100)); lra).
  set (u := rn (sq2 rn d / sq2 rn h')) in *. set (t := (d / h) ^ 2) in *.
  assert (U0 : 0 <= u) by (apply (quot_pos rn big RN); auto; apply (sq2_pos rn big RN)). assert (T0 : 0 <= t) by (apply pow_le; apply Rmult_le_pos; [lra|left; apply Rinv_0_lt_compat; lra]).
  assert (C := clip (3 + (m + m)) u t ltac:(lia) U0 T0 U). assert (N0 := pos_INR (3 + (m + m))).
  assert (KE : K Bisquare d h = (1 - Rmin 1 t) ^ 2).
  { cbn [K]. fold t. destruct (Rlt_dec d h) as [L|L]; [rewrite Rmin_right; auto; left; apply ratio_lt; auto|]. rewrite Rmin_left; [ring|]. apply ratio_ge; lra. }
  rewrite KE. cbn [RK]. fold u. cbv zeta.
  assert (M1 : 0 <= Rmin 1 t <= 1) by (unfold Rmin; destruct (Rle_dec 1 t); lra).
  destruct (Rltb d h') eqn:L.
  - apply Rltb_true in L. assert (U1 : u <= 1) by (apply (quot_le1 rn big RN); auto; apply (sq2_mono rn big RN); lra). rewrite (Rmin_right 1 u) in C by auto. apply sq_close; auto. lra.
  - apply Rltb_false in L. assert (U1 : 1 <= u) by (apply quot_ge1; auto; apply (sq2_mono rn big RN); lra). rewrite (Rmin_left 1 u) in C by auto.
    rewrite Rmult_0_l, (zero rn big RN). set (q := 1 - Rmin 1 t) in *. assert (Q : 0 <= q <= 1) by (unfold q; lra). assert (Q3 : 0 <= q ^ 2 <= q) by (cbn [pow]; split; nra).
    rewrite Rabs_left1 by lra. assert (A := Rle_abs q). replace ((2 * (INR (3 + (m + m)) + 1) + 4) * e) with (2 * ((INR (3 + (m + m)) + 1) * e) + 4 * e) by ring. lra.
Qed.
Lemma tric_close m d h h' : (m <= 5)%nat -> rng d -> rng h -> rng h' -> rel m h' h -> Rabs (RK rn fe Tricube d h' - K Tricube d h) <= (3 * (INR (5 + (m + m + m)) + 1) + 6) * e.
Proof.
  intros M5 D H H' M. assert (Pd := rng_pos d D). assert (Ph := rng_pos h H). assert (Ph' := rng_pos h' H'). assert (E := e_small).
  assert (U := u3_rel m d h h' D H H' M). assert (Sh : 0 < cu rn h') by (assert (S := cu_rng h' H'); assert (Q := p2_pos (-150)); lra).
  set (u := rn (cu rn d / cu rn h')) in *. set (t := (d / h) ^ 3) in *.
  assert (U0 : 0 <= u) by (apply (quot_pos rn big RN); auto; apply (cu_pos rn big RN); lra). assert (T0 : 0 <= t) by (apply pow_le; apply Rmult_le_pos; [lra|left; apply Rinv_0_lt_compat; lra]).
  assert (C := clip (5 + (m + m + m)) u t ltac:(lia) U0 T0 U). assert (N0 := pos_INR (5 + (m + m + m))).
  assert (KE : K Tricube d h = (1 - Rmin 1 t) ^ 3).
  { cbn [K]. fold t. destruct (Rlt_dec d h) as [L|L]; [rewrite Rmin_right; auto; left; apply ratio_lt; auto|]. rewrite Rmin_left; [ring|]. apply ratio_ge; lra. }
  rewrite KE. cbn [RK]. fold u. cbv zeta.
  assert (M1 : 0 <= Rmin 1 t <= 1) by (unfold Rmin; destruct (Rle_dec 1 t); lra).
  destruct (Rltb d h') eqn:L.
  - apply Rltb_true in L. assert (U1 : u <= 1) by (apply (quot_le1 rn big RN); auto; apply (cu_mono rn big RN); lra). rewrite (Rmin_right 1 u) in C by auto. apply cu_close; auto. lra.
  - apply Rltb_false in L. assert (U1 : 1 <= u) by (apply quot_ge1; auto; apply (cu_mono rn big RN); lra). rewrite (Rmin_left 1 u) in C by auto.
    rewrite Rmult_0_l, (zero rn big RN). set (q := 1 - Rmin 1 t) in *. assert (Q : 0 <= q <= 1) by (unfold q; lra). assert (Q3 : 0 <= q ^ 3 <= q) by (cbn [pow]; split; nra).
    rewrite Rabs_left1 by lra. assert (A := Rle_abs q). replace ((3 * (INR (5 + (m + m + m)) + 1) + 6) * e) with (3 * ((INR (5 + (m + m + m)) + 1) * e) + 6 * e) by ring. lra.
Qed.
Lemma RK_close k m d h h' : (m <= 5)%nat -> d = 0 \/ rng d -> rng h -> rng h' -> rel m h' h -> (k = Boxcar -> h' = h) ->
  Rabs (RK rn fe k d h' - K k d h) <= (9 * INR m + 24) * e.
Proof.
  intros M5 D H H' M B. assert (E := e_small). assert (N0 := pos_INR m). assert (0 <= (9 * INR m + 24) * e) by (apply Rmult_le_pos; lra). destruct D as [->|D].
  - rewrite (RK_zero rn big fe RN FE k h') by apply H'. assert (Ph := rng_pos h H). replace (K k 0 h) with 1; [rewrite Rminus_diag_eq, Rabs_R0; auto|].
    unfold K. replace (0 / h) with 0 by (field; lra). destruct k; cbn [pow]; try (destruct (Rlt_dec 0 h); [|lra]); try lra.
    + rewrite <- exp_0. f_equal. field.
    + rewrite <- exp_0. f_equal. ring.
  - destruct k.
    + eapply Rle_trans; [apply (gauss_close m); auto|]. rewrite !plus_INR. cbn [INR]. nra.
    + eapply Rle_trans; [apply (expo_close m); auto|]. rewrite !plus_INR. cbn [INR]. nra.
    + eapply Rle_trans; [apply (bisq_close m); auto|]. rewrite !plus_INR. cbn [INR]. nra.
    + eapply Rle_trans; [apply (tric_close m); auto|]. rewrite !plus_INR. cbn [INR]. nra.
    + rewrite (B eq_refl). cbn [RK K]. unfold Rltb. destruct (Rlt_dec d h); rewrite ?Rmult_0_l, ?Rmult_1_l, ?(one rn big RN), ?(zero rn big RN), Rminus_diag_eq, Rabs_R0; auto.
Qed.
End Round.
