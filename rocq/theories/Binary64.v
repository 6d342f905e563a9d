(** Rounding of binary64 to nearest is a rounding in the sense of RoundSpec.v. *)
From Coq Require Import Reals Bool List ZArith Lra Lia.
From Verif Require Import XReal XRealFacts KernelProofs RoundSpec RoundProofs.
Local Open Scope R_scope.

Lemma ln2_pos : 0 < ln 2.
Proof. rewrite <- ln_1. apply ln_increasing; lra. Qed.
Lemma p2_exp k : p2 k = exp (IZR k * ln 2).
Proof. unfold p2. rewrite powerRZ_Rpower by lra. reflexivity. Qed.
Lemma exponent_spec x : 0 < x -> p2 (exponent x) <= x < p2 (exponent x + 1).
Proof.
  intros P. unfold exponent. rewrite Rabs_right by lra. assert (L := ln2_pos). destruct (Int_part_spec (ln x / ln 2)) as [A B].
  set (z := Int_part (ln x / ln 2)) in *. assert (E : ln x = ln x / ln 2 * ln 2) by (field; lra). rewrite !p2_exp. split.
  - apply Rle_trans with (exp (ln x)); [|right; apply exp_ln; auto]. apply exp_le. rewrite E. apply Rmult_le_compat_r; lra.
  - apply Rle_lt_trans with (exp (ln x)); [right; symmetry; apply exp_ln; auto|]. apply exp_increasing. rewrite E. apply Rmult_lt_compat_r; auto. rewrite plus_IZR. lra.
Qed.
Lemma exponent_unique x e : p2 e <= x < p2 (e + 1) -> exponent x = e.
Proof.
  intros [A B]. assert (P := p2_pos e). destruct (exponent_spec x) as [C D]; [lra|]. destruct (Z.lt_trichotomy (exponent x) e) as [L|[L|L]]; auto; exfalso.
  - assert (p2 (exponent x + 1) <= p2 e) by (apply p2_le; lia). lra.
  - assert (p2 (e + 1) <= p2 (exponent x)) by (apply p2_le; lia). lra.
Qed.
Lemma exponent_mono x y : 0 < x -> x <= y -> (exponent x <= exponent y)%Z.
Proof.
  intros P L. destruct (exponent_spec x P) as [A _]. destruct (exponent_spec y) as [_ B]; [lra|].
  destruct (Z_le_gt_dec (exponent x) (exponent y)); auto. exfalso. assert (p2 (exponent y + 1) <= p2 (exponent x)) by (apply p2_le; lia). lra.
Qed.
Lemma exponent_opp x : exponent (- x) = exponent x.
Proof. unfold exponent. rewrite Rabs_Ropp. reflexivity. Qed.
Lemma spacing_opp x : spacing (- x) = spacing x.
Proof. unfold spacing. rewrite exponent_opp. reflexivity. Qed.
Lemma spacing_pos x : 0 < spacing x.
Proof. apply p2_pos. Qed.

Lemma nearest_int z : nearest (IZR z) = z.
Proof.
  unfold nearest. rewrite (Int_part_unique (IZR z) z) by lra. cbv zeta. replace (IZR z - IZR z) with 0 by lra.
  rewrite (proj2 (Rltb_true 0 (1 / 2))) by lra. reflexivity.
Qed.
Lemma nearest_bounds x : (Int_part x <= nearest x <= Int_part x + 1)%Z.
Proof. unfold nearest. cbv zeta. destruct (Rltb (x - IZR (Int_part x)) (1 / 2)), (Rltb (1 / 2) (x - IZR (Int_part x))), (Z.even (Int_part x)); lia. Qed.
Lemma nearest_mono x y : x <= y -> (nearest x <= nearest y)%Z.
Proof.
  intros L. assert (A := nearest_bounds x). assert (B := nearest_bounds y). destruct (Int_part_spec x) as [X1 X2]. destruct (Int_part_spec y) as [Y1 Y2].
  assert (O : (Int_part x <= Int_part y)%Z). { enough (Int_part x < Int_part y + 1)%Z by lia. apply lt_IZR. rewrite plus_IZR. lra. }
  destruct (Z.eq_dec (Int_part x) (Int_part y)) as [E|N]; [|lia]. unfold nearest. cbv zeta. rewrite E in *.
  destruct (Rltb (x - IZR (Int_part y)) (1 / 2)) eqn:P, (Rltb (y - IZR (Int_part y)) (1 / 2)) eqn:Q, (Rltb (1 / 2) (x - IZR (Int_part y))) eqn:P',
    (Rltb (1 / 2) (y - IZR (Int_part y))) eqn:Q'; try (destruct (Z.even (Int_part y)); lia);
  rewrite ?Rltb_true, ?Rltb_false in *; exfalso; lra.
Qed.
Lemma nearest_opp x : nearest (- x) = (- nearest x)%Z.
Proof.
  destruct (Int_part_spec x) as [X1 X2]. destruct (Req_dec x (IZR (Int_part x))) as [E|N].
  - rewrite E, <- opp_IZR, !nearest_int. reflexivity.
  - assert (I : Int_part (- x) = (- Int_part x - 1)%Z) by (apply Int_part_unique; rewrite minus_IZR, opp_IZR; lra).
    unfold nearest. cbv zeta. rewrite I, minus_IZR, opp_IZR. set (z := Int_part x) in *.
    replace (- x - (- IZR z - 1)) with (1 - (x - IZR z)) by lra.
    replace (Z.even (- z - 1)) with (negb (Z.even z)).
    2:{ replace (- z - 1)%Z with (- (z + 1))%Z by lia. rewrite Z.even_opp, Z.even_add. destruct (Z.even z); reflexivity. }
    destruct (Rltb (x - IZR z) (1 / 2)) eqn:P, (Rltb (1 / 2) (x - IZR z)) eqn:Q; rewrite ?Rltb_true, ?Rltb_false in *; try lra.
    + rewrite (proj2 (Rltb_false (1 - (x - IZR z)) (1 / 2))) by lra. rewrite (proj2 (Rltb_true (1 / 2) (1 - (x - IZR z)))) by lra. lia.
    + rewrite (proj2 (Rltb_true (1 - (x - IZR z)) (1 / 2))) by lra. lia.
    + rewrite (proj2 (Rltb_false (1 - (x - IZR z)) (1 / 2))) by lra. rewrite (proj2 (Rltb_false (1 / 2) (1 - (x - IZR z)))) by lra.
      destruct (Z.even z); cbn; lia.
Qed.

Lemma b64_pos x : 0 < x -> binary64 x = spacing x * IZR (nearest (x / spacing x)).
Proof. intros P. unfold binary64. rewrite (proj2 (Reqb_false x 0)) by lra. reflexivity. Qed.
Lemma b64_zero : binary64 0 = 0.
Proof. unfold binary64. rewrite (proj2 (Reqb_true 0 0)) by lra. reflexivity. Qed.
Lemma b64_opp x : binary64 (- x) = - binary64 x.
Proof.
  unfold binary64. destruct (Reqb x 0) eqn:E.
  - apply Reqb_true in E. subst. rewrite (proj2 (Reqb_true (- 0) 0)) by lra. lra.
  - apply Reqb_false in E. rewrite (proj2 (Reqb_false (- x) 0)) by lra. rewrite spacing_opp. unfold Rdiv. rewrite Ropp_mult_distr_l_reverse, nearest_opp, opp_IZR. lra.
Qed.

(** Multiples of the spacing bound the rounding. *)
Definition sexp (x : R) : Z := Z.max (exponent x - 52) (-1074).
Lemma p2_int j : (0 <= j)%Z -> p2 j = IZR (2 ^ j).
Proof. intros H. replace j with (Z.of_nat (Z.to_nat j)) by lia. unfold p2. rewrite <- pow_powerRZ, pow_IZR. reflexivity. Qed.
Lemma b64_le x c : 0 < x -> x <= spacing x * IZR c -> binary64 x <= spacing x * IZR c.
Proof.
  intros P L. assert (S := spacing_pos x). rewrite b64_pos by auto. apply Rmult_le_compat_l; [lra|]. apply IZR_le. rewrite <- (nearest_int c). apply nearest_mono.
  apply Rmult_le_reg_r with (spacing x); auto. unfold Rdiv. rewrite Rmult_assoc, Rinv_l; lra.
Qed.
Lemma b64_ge x c : 0 < x -> spacing x * IZR c <= x -> spacing x * IZR c <= binary64 x.
Proof.
  intros P L. assert (S := spacing_pos x). rewrite b64_pos by auto. apply Rmult_le_compat_l; [lra|]. apply IZR_le. rewrite <- (nearest_int c). apply nearest_mono.
  apply Rmult_le_reg_r with (spacing x); auto. unfold Rdiv. rewrite Rmult_assoc, Rinv_l; lra.
Qed.
Lemma p2_multiple x j : (sexp x <= j)%Z -> p2 j = spacing x * IZR (2 ^ (j - sexp x)).
Proof. intros L. rewrite <- p2_int by lia. unfold spacing. fold (sexp x). rewrite <- p2_add. f_equal. lia. Qed.
Lemma b64_le_p2 x j : 0 < x -> (sexp x <= j)%Z -> x <= p2 j -> binary64 x <= p2 j.
Proof. intros P L H. rewrite (p2_multiple x j L) in *. apply b64_le; auto. Qed.
Lemma b64_ge_p2 x j : 0 < x -> (sexp x <= j)%Z -> p2 j <= x -> p2 j <= binary64 x.
Proof. intros P L H. rewrite (p2_multiple x j L) in *. apply b64_ge; auto. Qed.
Lemma b64_nonneg x : 0 <= x -> 0 <= binary64 x.
Proof.
  intros [P|<-]; [|rewrite b64_zero; lra]. assert (S := b64_ge x 0 P). rewrite Rmult_0_r in S. apply S. lra.
Qed.

Lemma b64_mono_pos x y : 0 < x -> x <= y -> binary64 x <= binary64 y.
Proof.
  intros P L. assert (M := exponent_mono x y P L). destruct (Z.eq_dec (sexp x) (sexp y)) as [E|N].
  - rewrite !b64_pos by lra. assert (ES : spacing x = spacing y) by (unfold spacing; fold (sexp x) (sexp y); rewrite E; reflexivity).
    assert (S := spacing_pos y). rewrite ES. apply Rmult_le_compat_l; [lra|]. apply IZR_le, nearest_mono. unfold Rdiv. apply Rmult_le_compat_r; [left; apply Rinv_0_lt_compat; auto|auto].
  - unfold sexp in N. destruct (exponent_spec x P) as [_ X]. destruct (exponent_spec y) as [Y _]; [lra|].
    assert (p2 (exponent x + 1) <= p2 (exponent y)) by (apply p2_le; lia).
    apply Rle_trans with (p2 (exponent y)).
    + apply b64_le_p2; auto; [unfold sexp; lia|lra].
    + apply b64_ge_p2; auto; [lra|unfold sexp; lia].
Qed.
Lemma b64_mono x y : x <= y -> binary64 x <= binary64 y.
Proof.
  intros L. destruct (Rlt_dec 0 x) as [P|P]; [apply b64_mono_pos; auto|].
  assert (NP : forall z, z <= 0 -> binary64 z <= 0). { intros z Z. assert (H := b64_nonneg (- z) ltac:(lra)). rewrite b64_opp in H. lra. }
  destruct (Rle_dec 0 y) as [Q|Q].
  - assert (A := NP x ltac:(lra)). assert (B := b64_nonneg y Q). lra.
  - assert (A := b64_mono_pos (- y) (- x) ltac:(lra) ltac:(lra)). rewrite !b64_opp in A. lra.
Qed.
Lemma b64_p2 k : (-1074 <= k)%Z -> binary64 (p2 k) = p2 k.
Proof.
  intros K. assert (P := p2_pos k). assert (E : exponent (p2 k) = k) by (apply exponent_unique; split; [lra|apply p2_lt; lia]).
  assert (S : (sexp (p2 k) <= k)%Z) by (unfold sexp; rewrite E; lia).
  apply Rle_antisym; [apply b64_le_p2; auto; lra|apply b64_ge_p2; auto; lra].
Qed.
Lemma b64_int n : INR n <= p2 53 -> binary64 (INR n) = INR n.
Proof.
  intros H. destruct n as [|n]; [apply b64_zero|]. set (m := S n) in *. assert (M1 : 1 <= INR m) by (apply (le_INR 1); unfold m; lia).
  destruct (exponent_spec (INR m)) as [A B]; [lra|]. assert (E0 : (0 <= exponent (INR m))%Z).
  { destruct (Z_le_gt_dec 0 (exponent (INR m))); auto. exfalso. assert (p2 (exponent (INR m) + 1) <= p2 0) by (apply p2_le; lia). rewrite p2_0 in *. lra. }
  destruct (Z_le_gt_dec (exponent (INR m)) 52) as [E|E].
  - assert (S : INR m = spacing (INR m) * IZR (Z.of_nat m * 2 ^ (- sexp (INR m)))).
    { rewrite mult_IZR, <- INR_IZR_INZ, <- p2_int by (unfold sexp; lia). unfold spacing. fold (sexp (INR m)).
      rewrite (Rmult_comm (INR m)), <- Rmult_assoc, <- p2_add. replace (sexp (INR m) + - sexp (INR m))%Z with 0%Z by lia. rewrite p2_0. lra. }
    set (c := (Z.of_nat m * 2 ^ (- sexp (INR m)))%Z) in S. assert (X := b64_le (INR m) c ltac:(lra) ltac:(lra)).
    assert (Y := b64_ge (INR m) c ltac:(lra) ltac:(lra)). lra.
  - assert (p2 53 <= p2 (exponent (INR m))) by (apply p2_le; lia). replace (INR m) with (p2 53) by lra. apply b64_p2. lia.
Qed.
Lemma b64_rounding : rounding binary64 binary64_big.
Proof.
  constructor.
  - exact b64_mono.
  - exact b64_zero.
  - intros k K. apply b64_p2. lia.
  - intros k K. rewrite b64_opp, b64_p2 by lia. reflexivity.
  - exact b64_int.
  - unfold binary64_big. assert (A := p2_pos 970). assert (B : p2 970 < p2 1000) by (apply p2_lt; lia).
    assert (C : p2 1001 <= p2 1024) by (apply p2_le; lia). change 1001%Z with (1 + 1000)%Z in C. rewrite p2_add, p2_1 in C. lra.
Qed.
