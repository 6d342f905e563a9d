(** Proofs about RoundModel.v. *)
From Coq Require Import Reals Bool List ZArith Lra Lia.
From Verif Require Import Outcome XReal XRealFacts KernelModel KernelSpec KernelProofs RoundModel RoundSpec.
Import ListNotations.
Local Open Scope R_scope.

Lemma p2_pos k : 0 < p2 k.
Proof. apply powerRZ_lt. lra. Qed.
Lemma p2_add i j : p2 (i + j) = p2 i * p2 j.
Proof. apply powerRZ_add. lra. Qed.
Lemma p2_0 : p2 0 = 1.
Proof. reflexivity. Qed.
Lemma p2_1 : p2 1 = 2.
Proof. unfold p2. simpl. lra. Qed.
Lemma p2_le i j : (i <= j)%Z -> p2 i <= p2 j.
Proof.
  intros H. replace j with (i + (j - i))%Z by lia. rewrite p2_add. assert (P := p2_pos i).
  enough (1 <= p2 (j - i)) by nra. replace (j - i)%Z with (Z.of_nat (Z.to_nat (j - i))) by lia.
  unfold p2. rewrite <- pow_powerRZ. apply pow_R1_Rle. lra.
Qed.
Lemma p2_lt i j : (i < j)%Z -> p2 i < p2 j.
Proof.
  intros H. apply Rlt_le_trans with (p2 (i + 1)); [|apply p2_le; lia]. rewrite p2_add, p2_1. assert (P := p2_pos i). lra.
Qed.
Lemma p2_sub i j : p2 (i - j) = p2 i / p2 j.
Proof. assert (P := p2_pos j). replace i with (i - j + j)%Z at 2 by lia. rewrite p2_add. field. lra. Qed.

(** Bounds by powers of two. *)
Definition bnd (k : Z) (r : R) : Prop := Rabs r <= p2 k.
Lemma bnd_mul i j a b : bnd i a -> bnd j b -> bnd (i + j) (a * b).
Proof. unfold bnd. intros A B. rewrite Rabs_mult, p2_add. apply Rmult_le_compat; auto; apply Rabs_pos. Qed.
Lemma bnd_div i j a b : bnd i a -> p2 j <= Rabs b -> bnd (i - j) (a / b).
Proof.
  unfold bnd. intros A B. assert (P := p2_pos j). unfold Rdiv. rewrite Rabs_mult, Rabs_inv, p2_sub. unfold Rdiv.
  apply Rmult_le_compat; auto; try apply Rabs_pos; [left; apply Rinv_0_lt_compat; lra|apply Rinv_le_contravar; lra].
Qed.
Lemma bnd_add i a b : bnd i a -> bnd i b -> bnd (i + 1) (a + b).
Proof. unfold bnd. intros A B. rewrite p2_add, p2_1. assert (T := Rabs_triang a b). lra. Qed.
Lemma bnd_sub i a b : bnd i a -> bnd i b -> bnd (i + 1) (a - b).
Proof. intros A B. apply bnd_add; auto. unfold bnd in *. rewrite Rabs_Ropp. exact B. Qed.
Lemma bnd_le i j r : bnd i r -> (i <= j)%Z -> bnd j r.
Proof. unfold bnd. intros A L. apply p2_le in L. lra. Qed.
Lemma bnd_one : bnd 0 1.
Proof. unfold bnd. rewrite p2_0, Rabs_R1. lra. Qed.
Lemma bnd_of i r : 0 <= r <= p2 i -> bnd i r.
Proof. unfold bnd. intros [A B]. rewrite Rabs_right; lra. Qed.

Section Round.
Variables (rn : R -> R) (big : R) (fe : R -> R).
Hypothesis RN : rounding rn big.
Hypothesis FE : exponential fe.

Lemma mono x y : x <= y -> rn x <= rn y. Proof. apply (rn_mono _ _ RN). Qed.
Lemma zero : rn 0 = 0. Proof. apply (rn_zero _ _ RN). Qed.
Lemma pow k : (-1000 <= k <= 1000)%Z -> rn (p2 k) = p2 k. Proof. apply (rn_p2 _ _ RN). Qed.
Lemma npow k : (-1000 <= k <= 1000)%Z -> rn (- p2 k) = - p2 k. Proof. apply (rn_np2 _ _ RN). Qed.
Lemma one : rn 1 = 1. Proof. rewrite <- p2_0. apply pow. lia. Qed.
Lemma pos x : 0 <= x -> 0 <= rn x. Proof. intros H. rewrite <- zero. apply mono. exact H. Qed.
Lemma neg x : x <= 0 -> rn x <= 0. Proof. intros H. rewrite <- zero. apply mono. exact H. Qed.
Lemma le1 x : x <= 1 -> rn x <= 1. Proof. intros H. rewrite <- one. apply mono. exact H. Qed.
Lemma ge k x : (-1000 <= k <= 1000)%Z -> p2 k <= x -> p2 k <= rn x. Proof. intros K H. rewrite <- (pow k K). apply mono. exact H. Qed.
Lemma rbnd k r : (-1000 <= k <= 1000)%Z -> bnd k r -> bnd k (rn r).
Proof.
  unfold bnd. intros K H. apply Rabs_le. assert (H1 := Rle_abs r). assert (H2 := Rle_abs (- r)). rewrite Rabs_Ropp in H2. split.
  - rewrite <- (npow k K). apply mono. lra.
  - rewrite <- (pow k K). apply mono. lra.
Qed.
Lemma small k r : (k <= 1000)%Z -> bnd k r -> Rabs r < big.
Proof. unfold bnd. intros K H. apply p2_le in K. assert (B := big_p2 _ _ RN). lra. Qed.

Lemma rd_val k x r : (-1000 <= k <= 1000)%Z -> xval x = Some r -> bnd k r -> xval (rd rn big x) = Some (rn r).
Proof.
  intros K V B. apply small in B; [|lia]. destruct x as [a| | |]; cbn in V; try discriminate; injection V as <-; cbn [rd].
  - destruct (Rleb big (Rabs a)) eqn:E; [apply Rleb_true in E; lra|]. apply xval_xfin.
  - cbn. rewrite zero. reflexivity.
Qed.
Lemma v_mul k x y a b : (-1000 <= k <= 1000)%Z -> xval x = Some a -> xval y = Some b -> bnd k (a * b) -> xval (rmul rn big x y) = Some (rn (a * b)).
Proof. intros K X Y B. apply (rd_val k); auto. apply xval_xmul; auto. Qed.
Lemma v_div k x y a b : (-1000 <= k <= 1000)%Z -> xval x = Some a -> xval y = Some b -> b <> 0 -> bnd k (a / b) -> xval (rdiv rn big x y) = Some (rn (a / b)).
Proof. intros K X Y N B. apply (rd_val k); auto. apply xval_xdiv; auto. Qed.
Lemma v_add k x y a b : (-1000 <= k <= 1000)%Z -> xval x = Some a -> xval y = Some b -> bnd k (a + b) -> xval (radd rn big x y) = Some (rn (a + b)).
Proof. intros K X Y B. apply (rd_val k); auto. apply xval_xadd; auto. Qed.
Lemma v_sub k x y a b : (-1000 <= k <= 1000)%Z -> xval x = Some a -> xval y = Some b -> bnd k (a - b) -> xval (rsub rn big x y) = Some (rn (a - b)).
Proof. intros K X Y B. apply (rd_val k); auto. apply xval_xsub; auto. Qed.
Lemma v_exp x a : xval x = Some a -> xval (rexp fe x) = Some (fe a).
Proof. destruct x; cbn; intros H; try discriminate; injection H as <-; reflexivity. Qed.

(** The kernels on numbers. *)
Definition sq2 (d : R) : R := rn (d * d).
Definition cu (d : R) : R := rn (rn (d * d) * d).
Definition RK (k : kernel) (d h : R) : R :=
  match k with
  | Gaussian => fe (rn (sq2 d / rn (-2 * sq2 h)))
  | Exponential => fe (rn (- d / h))
  | Bisquare => let q := rn (1 - rn (sq2 d / sq2 h)) in rn ((if Rltb d h then 1 else 0) * rn (q * q))
  | Tricube => let q := rn (1 - rn (cu d / cu h)) in rn ((if Rltb d h then 1 else 0) * rn (rn (q * q) * q))
  | Boxcar => rn ((if Rltb d h then 1 else 0) * 1)
  end.

Lemma sq2_mono d d' : 0 <= d -> d <= d' -> sq2 d <= sq2 d'.
Proof. intros. apply mono. nra. Qed.
Lemma sq2_pos d : 0 <= sq2 d.
Proof. apply pos. nra. Qed.
Lemma cu_mono d d' : 0 <= d -> d <= d' -> cu d <= cu d'.
Proof. intros P L. apply mono. assert (A := sq2_mono d d' P L). assert (B := sq2_pos d). unfold sq2 in *. nra. Qed.
Lemma cu_pos d : 0 <= d -> 0 <= cu d.
Proof. intros P. apply pos. assert (B := sq2_pos d). unfold sq2 in *. nra. Qed.
Lemma sq2_low d i : (-1000 <= i + i <= 1000)%Z -> p2 i <= d -> p2 (i + i) <= sq2 d.
Proof. intros I L. apply ge; auto. rewrite p2_add. assert (P := p2_pos i). nra. Qed.
Lemma cu_low d i : (-1000 <= i + i <= 1000)%Z -> (-1000 <= i + i + i <= 1000)%Z -> p2 i <= d -> p2 (i + i + i) <= cu d.
Proof.
  intros I J L. apply ge; auto. rewrite p2_add. assert (P := p2_pos i). assert (Q := p2_pos (i + i)). assert (S := sq2_low d i I L). unfold sq2 in S. nra.
Qed.
Lemma quot_mono a a' c : a <= a' -> 0 < c -> rn (a / c) <= rn (a' / c).
Proof. intros A C. apply mono. unfold Rdiv. assert (0 < / c) by (apply Rinv_0_lt_compat; lra). nra. Qed.
Lemma quot_pos a c : 0 <= a -> 0 < c -> 0 <= rn (a / c).
Proof. intros A C. apply pos. unfold Rdiv. assert (0 < / c) by (apply Rinv_0_lt_compat; lra). nra. Qed.
Lemma quot_le1 a c : a <= c -> 0 < c -> rn (a / c) <= 1.
Proof.
  intros A C. apply le1. apply Rmult_le_reg_r with c; auto. unfold Rdiv. rewrite Rmult_assoc, Rinv_l; lra.
Qed.

Definition low (h : R) : Prop := p2 (-50) <= h.
Lemma low_pos h : low h -> 0 < h.
Proof. intros H. assert (P := p2_pos (-50)). unfold low in H. lra. Qed.
Lemma sq_low h : low h -> 0 < sq2 h.
Proof. intros H. assert (P := p2_pos (-100)). apply (sq2_low h (-50)) in H; [|lia]. change (-50 + -50)%Z with (-100)%Z in H. lra. Qed.
Lemma cub_low h : low h -> 0 < cu h.
Proof. intros H. assert (P := p2_pos (-150)). apply (cu_low h (-50)) in H; try lia. change (-50 + -50 + -50)%Z with (-150)%Z in H. lra. Qed.
Lemma gauss_low h : low h -> rn (-2 * sq2 h) < 0.
Proof.
  intros H. apply (sq2_low h (-50)) in H; [|lia]. change (-50 + -50)%Z with (-100)%Z in H. assert (P := p2_pos (-99)).
  enough (rn (-2 * sq2 h) <= - p2 (-99)) by lra. rewrite <- npow by lia. apply mono. change (-99)%Z with (1 + -100)%Z. rewrite p2_add, p2_1. lra.
Qed.

(** The compact kernels inside the bandwidth. *)
Lemma q_range u : 0 <= u <= 1 -> 0 <= rn (1 - u) <= 1.
Proof. intros U. split; [apply pos; lra|apply le1; lra]. Qed.
Lemma prod_range a b : 0 <= a <= 1 -> 0 <= b <= 1 -> 0 <= rn (a * b) <= 1.
Proof. intros A B. split; [apply pos; nra|apply le1; nra]. Qed.
Lemma prod_mono a b a' b' : 0 <= a -> a <= a' -> 0 <= b -> b <= b' -> rn (a * b) <= rn (a' * b').
Proof. intros. apply mono. nra. Qed.

Lemma RK_range k d h : 0 <= d -> low h -> 0 <= RK k d h <= 1.
Proof.
  intros D L. assert (H := low_pos h L). destruct k; cbn [RK]; cbv zeta.
  - split; [apply (fe_nonneg _ FE)|]. rewrite <- (fe_zero _ FE). apply (fe_mono _ FE). apply neg. assert (G := gauss_low h L).
    assert (S := sq2_pos d). unfold Rdiv. assert (/ rn (-2 * sq2 h) < 0) by (apply Rinv_lt_0_compat; auto). nra.
  - split; [apply (fe_nonneg _ FE)|]. rewrite <- (fe_zero _ FE). apply (fe_mono _ FE). apply neg. unfold Rdiv.
    assert (0 < / h) by (apply Rinv_0_lt_compat; auto). nra.
  - destruct (Rltb d h) eqn:E.
    + apply Rltb_true in E. assert (U : 0 <= rn (sq2 d / sq2 h) <= 1).
      { split; [apply quot_pos; [apply sq2_pos|apply sq_low; auto]|apply quot_le1; [apply sq2_mono; lra|apply sq_low; auto]]. }
      apply q_range in U. apply prod_range; [lra|]. apply prod_range; auto.
    + rewrite Rmult_0_l, zero. lra.
  - destruct (Rltb d h) eqn:E.
    + apply Rltb_true in E. assert (U : 0 <= rn (cu d / cu h) <= 1).
      { split; [apply quot_pos; [apply cu_pos; lra|apply cub_low; auto]|apply quot_le1; [apply cu_mono; lra|apply cub_low; auto]]. }
      apply q_range in U. apply prod_range; [lra|]. apply prod_range; auto. apply prod_range; auto.
    + rewrite Rmult_0_l, zero. lra.
  - destruct (Rltb d h); rewrite ?Rmult_1_l, ?Rmult_0_l, ?one, ?zero; lra.
Qed.
Lemma RK_zero k h : low h -> RK k 0 h = 1.
Proof.
  intros L. assert (H := low_pos h L). assert (A : sq2 0 = 0) by (unfold sq2; rewrite Rmult_0_l; apply zero).
  assert (B : cu 0 = 0) by (unfold cu; rewrite !Rmult_0_r; apply zero). assert (E : Rltb 0 h = true) by (apply Rltb_true; auto).
  destruct k; cbn [RK]; cbv zeta; rewrite ?A, ?B, ?E; unfold Rdiv; rewrite ?Ropp_0, ?Rmult_0_l, ?zero, ?Rminus_0_r, ?one, ?Rmult_1_l, ?one, ?Rmult_1_l, ?one; auto; apply (fe_zero _ FE).
Qed.
Lemma RK_beyond k d h : compact k = true -> h <= d -> RK k d h = 0.
Proof.
  intros C D. assert (E : Rltb d h = false) by (apply Rltb_false; auto). destruct k; try discriminate; cbn [RK]; cbv zeta; rewrite E, Rmult_0_l; apply zero.
Qed.
Lemma RK_mono k d d' h : 0 <= d -> d <= d' -> low h -> RK k d' h <= RK k d h.
Proof.
  intros D DD L. assert (H := low_pos h L). destruct (compact k) eqn:C.
  - destruct (Rltb d' h) eqn:E'.
    2:{ apply Rltb_false in E'. rewrite (RK_beyond k d' h C E'). apply RK_range; auto. }
    apply Rltb_true in E' as LT'. assert (E : Rltb d h = true) by (apply Rltb_true; lra).
    destruct k; try discriminate; cbn [RK]; cbv zeta; rewrite E, E', ?Rmult_1_l; [| |lra].
    + assert (S := sq_low h L). assert (U : rn (sq2 d / sq2 h) <= rn (sq2 d' / sq2 h)) by (apply quot_mono; auto; apply sq2_mono; auto).
      assert (U' : rn (sq2 d' / sq2 h) <= 1) by (apply quot_le1; auto; apply sq2_mono; lra).
      assert (Q : rn (1 - rn (sq2 d' / sq2 h)) <= rn (1 - rn (sq2 d / sq2 h))) by (apply mono; lra).
      assert (Q' : 0 <= rn (1 - rn (sq2 d' / sq2 h))) by (apply pos; lra). apply mono. apply prod_mono; auto.
    + assert (S := cub_low h L). assert (U : rn (cu d / cu h) <= rn (cu d' / cu h)) by (apply quot_mono; auto; apply cu_mono; auto).
      assert (U' : rn (cu d' / cu h) <= 1) by (apply quot_le1; auto; apply cu_mono; lra).
      assert (Q : rn (1 - rn (cu d' / cu h)) <= rn (1 - rn (cu d / cu h))) by (apply mono; lra).
      assert (Q' : 0 <= rn (1 - rn (cu d' / cu h))) by (apply pos; lra). apply mono. apply prod_mono; auto; [apply pos; nra|apply prod_mono; auto].
  - destruct k; try discriminate; cbn [RK]; apply (fe_mono _ FE); apply mono.
    + assert (G := gauss_low h L). assert (S := sq2_mono d d' D DD). unfold Rdiv. assert (/ rn (-2 * sq2 h) < 0) by (apply Rinv_lt_0_compat; auto). nra.
    + unfold Rdiv. assert (0 < / h) by (apply Rinv_0_lt_compat; auto). nra.
Qed.

(** The kernels of the model have these values. *)
Lemma RK_val k x y d h : xval x = Some d -> xval y = Some h -> 0 <= d <= p2 50 -> p2 (-50) <= h <= p2 100 ->
  xval (r_kernel rn big fe k x y) = Some (RK k d h).
Proof.
  intros X Y [D0 D1] [H0 H1]. assert (L : low h) by exact H0. assert (HP := low_pos h L). assert (Bd : bnd 50 d) by (apply bnd_of; lra). assert (Bh : bnd 100 h) by (apply bnd_of; lra).
  assert (Bd2 : bnd 100 (d * d)) by (apply (bnd_mul 50 50); auto). assert (Bh2 : bnd 200 (h * h)) by (apply (bnd_mul 100 100); auto).
  assert (Bd2' : bnd 100 (sq2 d)) by (apply rbnd; auto; lia). assert (Bh2' : bnd 200 (sq2 h)) by (apply rbnd; auto; lia).
  assert (Vd2 : xval (rmul rn big x x) = Some (sq2 d)) by (apply (v_mul 100); auto; lia).
  assert (Vh2 : xval (rmul rn big y y) = Some (sq2 h)) by (apply (v_mul 200); auto; lia).
  assert (Sh := sq_low h L). assert (Sh' := sq2_low h (-50) ltac:(lia) H0).
  destruct k; cbn [r_kernel RK]; cbv zeta.
  - apply v_exp. assert (G := gauss_low h L).
    assert (B2 : bnd 201 (-2 * sq2 h)). { change 201%Z with (1 + 200)%Z. apply bnd_mul; auto. unfold bnd. rewrite p2_1. unfold Rabs; destruct (Rcase_abs (-2)); lra. }
    apply (v_div 199); [lia|exact Vd2| |lra|].
    + apply (v_mul 201); auto; lia.
    + change 199%Z with (100 - -99)%Z. apply bnd_div; auto. rewrite Rabs_left by auto. enough (rn (-2 * sq2 h) <= - p2 (-99)) by lra.
      rewrite <- npow by lia. apply mono. change (-99)%Z with (1 + (-50 + -50))%Z. rewrite p2_add, p2_1. lra.
  - apply v_exp. apply (v_div 100); [lia|apply xval_xopp; auto|exact Y|lra|]. change 100%Z with (50 - -50)%Z.
    apply bnd_div; [unfold bnd; rewrite Rabs_Ropp; exact Bd|rewrite Rabs_right; lra].
  - unfold r_bisquare. cbv zeta.
    assert (Bu : bnd 200 (sq2 d / sq2 h)). { change 200%Z with (100 - (-50 + -50))%Z. apply bnd_div; auto. rewrite Rabs_right; lra. }
    assert (Vu : xval (rdiv rn big (rmul rn big x x) (rmul rn big y y)) = Some (rn (sq2 d / sq2 h))) by (apply (v_div 200); auto; [lia|lra]).
    assert (Bu' : bnd 200 (rn (sq2 d / sq2 h))) by (apply rbnd; auto; lia).
    assert (Bq : bnd 201 (1 - rn (sq2 d / sq2 h))). { apply (bnd_sub 200); auto. apply (bnd_le 0); [apply bnd_one|lia]. }
    assert (Vq : xval (rsub rn big (XF 1) (rdiv rn big (rmul rn big x x) (rmul rn big y y))) = Some (rn (1 - rn (sq2 d / sq2 h)))).
    { apply (v_sub 201); auto. lia. }
    assert (Bq' : bnd 201 (rn (1 - rn (sq2 d / sq2 h)))) by (apply rbnd; auto; lia).
    set (q := rn (1 - rn (sq2 d / sq2 h))) in *. set (xq := rsub rn big (XF 1) _) in *.
    assert (Bqq : bnd 402 (q * q)) by (apply (bnd_mul 201 201); auto). assert (Vqq : xval (rmul rn big xq xq) = Some (rn (q * q))) by (apply (v_mul 402); auto; lia).
    assert (Bqq' : bnd 402 (rn (q * q))) by (apply rbnd; auto; lia).
    rewrite (xltb_val x y d h X Y). apply (v_mul 402); [lia|apply xval_xofbool|exact Vqq|].
    change 402%Z with (0 + 402)%Z. apply bnd_mul; auto. destruct (Rltb d h); unfold bnd; rewrite p2_0, ?Rabs_R1, ?Rabs_R0; lra.
  - unfold r_tricube. cbv zeta.
    assert (Bd3 : bnd 150 (rn (d * d) * d)) by (apply (bnd_mul 100 50); auto). assert (Bh3 : bnd 300 (rn (h * h) * h)) by (apply (bnd_mul 200 100); auto).
    assert (Bd3' : bnd 150 (cu d)) by (apply rbnd; auto; lia).
    assert (Vd3 : xval (rmul rn big (rmul rn big x x) x) = Some (cu d)) by (apply (v_mul 150); auto; lia).
    assert (Vh3 : xval (rmul rn big (rmul rn big y y) y) = Some (cu h)) by (apply (v_mul 300); auto; lia).
    assert (Ch := cub_low h L). assert (Ch' := cu_low h (-50) ltac:(lia) ltac:(lia) H0).
    assert (Bu : bnd 300 (cu d / cu h)). { change 300%Z with (150 - (-50 + -50 + -50))%Z. apply bnd_div; auto. rewrite Rabs_right; lra. }
    assert (Vu : xval (rdiv rn big (rmul rn big (rmul rn big x x) x) (rmul rn big (rmul rn big y y) y)) = Some (rn (cu d / cu h))) by (apply (v_div 300); auto; [lia|lra]).
    assert (Bu' : bnd 300 (rn (cu d / cu h))) by (apply rbnd; auto; lia).
    assert (Bq : bnd 301 (1 - rn (cu d / cu h))). { apply (bnd_sub 300); auto. apply (bnd_le 0); [apply bnd_one|lia]. }
    assert (Vq : xval (rsub rn big (XF 1) (rdiv rn big (rmul rn big (rmul rn big x x) x) (rmul rn big (rmul rn big y y) y))) = Some (rn (1 - rn (cu d / cu h)))).
    { apply (v_sub 301); auto. lia. }
    assert (Bq' : bnd 301 (rn (1 - rn (cu d / cu h)))) by (apply rbnd; auto; lia).
    set (q := rn (1 - rn (cu d / cu h))) in *. set (xq := rsub rn big (XF 1) _) in *.
    assert (Bqq : bnd 602 (q * q)) by (apply (bnd_mul 301 301); auto). assert (Vqq : xval (rmul rn big xq xq) = Some (rn (q * q))) by (apply (v_mul 602); auto; lia).
    assert (Bqq' : bnd 602 (rn (q * q))) by (apply rbnd; auto; lia).
    assert (Bq3 : bnd 903 (rn (q * q) * q)) by (apply (bnd_mul 602 301); auto).
    assert (Vq3 : xval (rmul rn big (rmul rn big xq xq) xq) = Some (rn (rn (q * q) * q))) by (apply (v_mul 903); auto; lia).
    assert (Bq3' : bnd 903 (rn (rn (q * q) * q))) by (apply rbnd; auto; lia).
    rewrite (xltb_val x y d h X Y). apply (v_mul 903); [lia|apply xval_xofbool|exact Vq3|].
    change 903%Z with (0 + 903)%Z. apply bnd_mul; auto. destruct (Rltb d h); unfold bnd; rewrite p2_0, ?Rabs_R1, ?Rabs_R0; lra.
  - unfold r_boxcar. rewrite (xltb_val x y d h X Y). apply (v_mul 0); [lia|apply xval_xofbool|reflexivity|].
    destruct (Rltb d h); unfold bnd; rewrite p2_0, ?Rmult_1_l, ?Rmult_0_l, ?Rabs_R1, ?Rabs_R0; lra.
Qed.
End Round.
