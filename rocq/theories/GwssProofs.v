From Coq Require Import Reals Bool List Arith Lia Lra Psatz Permutation Sorted.
From Verif Require Import Outcome XReal XRealFacts RSort Sums DiagModel DiagProofs GwssModel GwssSpec.
Import ListNotations.
Local Open Scope R_scope.

(** ** Moments *)
Section Moments.
Variables (n : nat) (W : nat -> R).
Hypothesis W0 : forall j, (j < n)%nat -> 0 <= W j.
Hypothesis W1 : bigsum n W = 1.

Lemma mean_bounds : forall x lo hi, (forall j, (j < n)%nat -> 0 < W j -> lo <= x j <= hi) ->
  lo <= gw_mean n W x <= hi.
Proof.
  intros x lo hi H; unfold gw_mean.
  assert (L : lo = bigsum n (fun j => W j * lo)).
  { rewrite (bigsum_ext n _ (fun j => lo * W j)) by (intros; ring). rewrite bigsum_scal, W1; ring. }
  assert (U : hi = bigsum n (fun j => W j * hi)).
  { rewrite (bigsum_ext n _ (fun j => hi * W j)) by (intros; ring). rewrite bigsum_scal, W1; ring. }
  split; [rewrite L|rewrite U]; apply bigsum_le; intros j Lj; specialize (W0 j Lj); specialize (H j Lj);
    (destruct (Req_dec (W j) 0) as [->|N]; [lra|assert (0 < W j) by lra; specialize (H H0); nra]).
Qed.

Lemma var_nonneg : forall x, 0 <= gw_var n W x.
Proof.
  intros x; unfold gw_var; cbv zeta; apply bigsum_nonneg; intros j Lj; specialize (W0 j Lj).
  apply Rmult_le_pos; [assumption|apply Rle_0_sqr].
Qed.
Lemma var_zero : forall x, gw_var n W x = 0 <->
  forall j k, (j < n)%nat -> (k < n)%nat -> 0 < W j -> 0 < W k -> x j = x k.
Proof.
  intros x; split.
  - intros Z. assert (H : forall j, (j < n)%nat -> 0 < W j -> x j = gw_mean n W x).
    { intros j Lj Pj. unfold gw_var in Z; cbv zeta in Z.
      assert (Zj := bigsum_zero n _ (fun i Li => Rmult_le_pos _ _ (W0 i Li) (Rle_0_sqr (x i - gw_mean n W x))) Z j Lj).
      cbv beta in Zj; unfold Rsqr in Zj. apply Rmult_integral in Zj as [Zj|Zj]; [lra|].
      apply Rmult_integral in Zj as [Zj|Zj]; lra. }
    intros j k Lj Lk Pj Pk. rewrite (H j Lj Pj), (H k Lk Pk); reflexivity.
  - intros H. unfold gw_var; cbv zeta.
    transitivity (bigsum n (fun _ => 0)); [|apply bigsum_0]. apply bigsum_ext; intros j Lj.
    destruct (Req_dec (W j) 0) as [->|N]; [ring|].
    assert (Pj : 0 < W j) by (specialize (W0 j Lj); lra).
    destruct (mean_bounds x (x j) (x j)) as [A B].
    { intros k Lk Pk. rewrite (H k j Lk Lj Pk Pj); lra. }
    replace (x j - gw_mean n W x) with 0 by lra; ring.
Qed.

Lemma mean_affine : forall x a b, gw_mean n W (fun j => a * x j + b) = a * gw_mean n W x + b.
Proof.
  intros x a b; unfold gw_mean.
  rewrite (bigsum_ext n _ (fun j => a * (W j * x j) + b * W j)) by (intros; ring).
  rewrite bigsum_plus, !bigsum_scal, W1; ring.
Qed.
Lemma var_affine : forall x a b, gw_var n W (fun j => a * x j + b) = a * a * gw_var n W x.
Proof.
  intros x a b; unfold gw_var; cbv zeta; rewrite mean_affine, <- bigsum_scal.
  apply bigsum_ext; intros; ring.
Qed.
Lemma third_affine : forall x a b,
  bigsum n (fun j => W j * ((a * x j + b - gw_mean n W (fun j => a * x j + b)) *
     (a * x j + b - gw_mean n W (fun j => a * x j + b)) * (a * x j + b - gw_mean n W (fun j => a * x j + b)))) =
  a * a * a * bigsum n (fun j => W j * ((x j - gw_mean n W x) * (x j - gw_mean n W x) * (x j - gw_mean n W x))).
Proof.
  intros x a b; rewrite mean_affine, <- bigsum_scal. apply bigsum_ext; intros; ring.
Qed.
Lemma skew_value : forall x, 0 < gw_var n W x -> xval (gw_skew n W x) =
  Some (bigsum n (fun j => W j * ((x j - gw_mean n W x) * (x j - gw_mean n W x) * (x j - gw_mean n W x)))
        / (gw_var n W x * sqrt (gw_var n W x))).
Proof.
  intros x P. unfold gw_skew, gw_sd; cbv zeta.
  assert (S := sqrt_lt_R0 _ P).
  apply xval_xdiv; [reflexivity| |nra].
  apply xval_xmul; [reflexivity|]. apply xval_xsqrt; [reflexivity|lra].
Qed.
Lemma skew_affine : forall x a b, 0 < a -> 0 < gw_var n W x ->
  xval (gw_skew n W (fun j => a * x j + b)) = xval (gw_skew n W x).
Proof.
  intros x a b Pa Pv. assert (Sq := sqrt_lt_R0 _ Pv).
  rewrite (skew_value x Pv), (skew_value (fun j => a * x j + b)); [|rewrite var_affine; assert (0 < a * a) by nra; nra].
  rewrite var_affine.
  rewrite third_affine. f_equal.
  rewrite sqrt_mult; [|nra|lra]. rewrite sqrt_square by lra. field; repeat split; lra.
Qed.

(** ** Correlation *)
Definition cross (x z : nat -> R) : R :=
  bigsum n (fun j => W j * ((x j - gw_mean n W x) * (z j - gw_mean n W z))).
Lemma cauchy : forall u v : nat -> R,
  bigsum n (fun j => W j * (u j * v j)) * bigsum n (fun j => W j * (u j * v j)) <=
  bigsum n (fun j => W j * (u j * u j)) * bigsum n (fun j => W j * (v j * v j)).
Proof.
  intros u v.
  set (C := bigsum n (fun j => W j * (u j * v j))).
  set (A := bigsum n (fun j => W j * (u j * u j))).
  set (B := bigsum n (fun j => W j * (v j * v j))).
  assert (HB : forall j, (j < n)%nat -> 0 <= W j * (v j * v j)).
  { intros j Lj; apply Rmult_le_pos; [auto|apply Rle_0_sqr]. }
  assert (PB : 0 <= B) by (apply bigsum_nonneg; exact HB).
  assert (P : 0 <= B * (A * B - C * C)).
  { replace (B * (A * B - C * C)) with (bigsum n (fun j => W j * ((B * u j - C * v j) * (B * u j - C * v j)))).
    - apply bigsum_nonneg; intros j Lj; apply Rmult_le_pos; [auto|apply Rle_0_sqr].
    - rewrite (bigsum_ext n _ (fun j => B * B * (W j * (u j * u j)) + (-(2 * B * C) * (W j * (u j * v j)) + C * C * (W j * (v j * v j))))) by (intros; ring).
      rewrite !bigsum_plus, !bigsum_scal. fold A B C. ring. }
  destruct (Req_dec B 0) as [Z|N].
  - assert (HC : C = 0).
    { unfold C; transitivity (bigsum n (fun _ => 0)); [|apply bigsum_0]. apply bigsum_ext; intros j Lj.
      assert (Zj := bigsum_zero n _ HB Z j Lj). cbv beta in Zj.
      apply Rmult_integral in Zj as [->|Zj]; [ring|]. apply Rmult_integral in Zj as [-> | ->]; ring. }
    rewrite HC, Z; lra.
  - assert (0 < B) by lra. nra.
Qed.
Lemma cross_cauchy : forall x z, cross x z * cross x z <= gw_var n W x * gw_var n W z.
Proof. intros x z. exact (cauchy (fun j => x j - gw_mean n W x) (fun j => z j - gw_mean n W z)). Qed.

Lemma mean_comm : forall x, bigsum n (fun j => x j * W j) = gw_mean n W x.
Proof. intros; apply bigsum_ext; intros; ring. Qed.
Lemma covwt_eq : forall x z, covwt n x z W = xdiv (XF (cross x z)) (XF (1 - bigsum n (fun j => W j * W j))).
Proof.
  intros x z; unfold covwt; cbv zeta; rewrite !mean_comm. f_equal. f_equal.
  apply bigsum_ext; intros j Lj. rewrite <- (sqrt_sqrt (W j)) at 3 by auto. ring.
Qed.
Lemma cross_self : forall x, cross x x = gw_var n W x.
Proof. reflexivity. Qed.
Lemma corr_corwt : forall x z, corr n x z W = corwt n x z W.
Proof. intros x z; unfold corr, corwt; cbv zeta. rewrite !covwt_eq, !cross_self. reflexivity. Qed.

Lemma pick : forall j, (j < n)%nat -> bigsum n (fun i => if Nat.eqb i j then W i else 0) = W j.
Proof.
  intros j Lj. rewrite (bigsum_single n _ j Lj); [rewrite Nat.eqb_refl; reflexivity|].
  intros i _ N; destruct (Nat.eqb_spec i j); congruence.
Qed.
Lemma W_le1 : forall j, (j < n)%nat -> W j <= 1.
Proof.
  intros j Lj. rewrite <- W1, <- (pick j Lj).
  apply bigsum_le; intros i Li. destruct (Nat.eqb i j); [lra|auto].
Qed.
Lemma one_point : forall j k, (j < n)%nat -> (k < n)%nat -> W k = 1 -> j <> k -> W j = 0.
Proof.
  intros j k Lj Lk H N.
  assert (E : bigsum n (fun i => if Nat.eqb i k then 0 else W i) = 0).
  { assert (T : bigsum n (fun i => if Nat.eqb i k then 0 else W i) + W k = 1).
    { rewrite <- (pick k Lk), <- bigsum_plus, <- W1. apply bigsum_ext; intros i _; destruct (Nat.eqb i k); lra. }
    lra. }
  assert (Z := bigsum_zero n _ (fun i Li => match Nat.eqb i k as b return 0 <= (if b then 0 else W i) with
     | true => Rle_refl 0 | false => W0 i Li end) E j Lj). cbv beta in Z.
  destruct (Nat.eqb_spec j k); congruence.
Qed.
Lemma spread_nonneg : 0 <= 1 - bigsum n (fun j => W j * W j).
Proof.
  assert (bigsum n (fun j => W j * W j) <= bigsum n W); [|lra].
  apply bigsum_le; intros j Lj. assert (A1 := W_le1 j Lj); assert (A0 := W0 j Lj); nra.
Qed.
Lemma spread_zero : forall x, 1 - bigsum n (fun j => W j * W j) = 0 -> gw_var n W x = 0.
Proof.
  intros x Z. apply var_zero. intros j k Lj Lk Pj Pk.
  assert (H : forall i, (i < n)%nat -> 0 < W i -> W i = 1).
  { intros i Li Pi.
    assert (E : bigsum n (fun j => W j * (1 - W j)) = 0).
    { rewrite (bigsum_ext n _ (fun j => W j + -1 * (W j * W j))) by (intros; ring).
      rewrite bigsum_plus, bigsum_scal, W1. lra. }
    assert (Q : forall j, (j < n)%nat -> 0 <= W j * (1 - W j)).
    { intros m Lm. assert (A1 := W_le1 m Lm); assert (A0 := W0 m Lm); nra. }
    assert (Zi := bigsum_zero n _ Q E i Li). cbv beta in Zi.
    apply Rmult_integral in Zi as [Zi|Zi]; lra. }
  destruct (Nat.eq_dec j k) as [->|N]; [reflexivity|].
  assert (A := one_point j k Lj Lk (H k Lk Pk) N). lra.
Qed.

Lemma xdiv_zero : forall a b, xval a = Some 0 -> xval b = Some 0 -> xdiv a b = XN.
Proof.
  assert (T : Reqb 0 0 = true) by (apply Reqb_true; reflexivity).
  intros [r| | |] [s| | |] A B; try discriminate; cbn in A, B; inversion A; inversion B; subst; cbn; rewrite ?T; reflexivity.
Qed.

Lemma corr_cases : forall x z,
  (0 < gw_var n W x /\ 0 < gw_var n W z /\ xval (corr n x z W) = Some (cross x z / sqrt (gw_var n W x * gw_var n W z))) \/
  ((gw_var n W x = 0 \/ gw_var n W z = 0) /\ corr n x z W = XN).
Proof.
  intros x z.
  assert (PA := var_nonneg x). assert (PB := var_nonneg z). assert (CS := cross_cauchy x z). assert (PD := spread_nonneg).
  unfold corr; cbv zeta; rewrite covwt_eq.
  set (A := gw_var n W x) in *. set (B := gw_var n W z) in *. set (C := cross x z) in *.
  set (D := 1 - bigsum n (fun j => W j * W j)) in *.
  destruct (Req_dec D 0) as [ZD|ND].
  - right. assert (ZA : A = 0) by (apply spread_zero; exact ZD). split; [left; exact ZA|].
    assert (ZC : C = 0) by (rewrite ZA in CS; nra).
    rewrite ZC, ZD. rewrite (xdiv_zero (XF 0) (XF 0)) by reflexivity. reflexivity.
  - assert (HC : xval (xdiv (XF C) (XF D)) = Some (C / D)) by (apply xval_xdiv; auto).
    assert (HA : xval (xdiv (XF A) (XF D)) = Some (A / D)) by (apply xval_xdiv; auto).
    assert (HB : xval (xdiv (XF B) (XF D)) = Some (B / D)) by (apply xval_xdiv; auto).
    assert (P : 0 <= A / D * (B / D)).
    { assert (0 <= A / D) by (apply Rmult_le_pos; [assumption|left; apply Rinv_0_lt_compat; lra]).
      assert (0 <= B / D) by (apply Rmult_le_pos; [assumption|left; apply Rinv_0_lt_compat; lra]). nra. }
    assert (HS := xval_xsqrt _ _ (xval_xmul _ _ _ _ HA HB) P).
    assert (E : sqrt (A / D * (B / D)) = sqrt (A * B) / D).
    { replace (A / D * (B / D)) with ((A * B) / (D * D)) by (field; auto).
      rewrite sqrt_div; [|nra|nra]. rewrite sqrt_square by lra. reflexivity. }
    rewrite E in HS.
    destruct (Req_dec (A * B) 0) as [Z|N].
    + right. split; [apply Rmult_integral; exact Z|].
      assert (ZC : C = 0) by nra.
      rewrite Z, sqrt_0 in HS. rewrite ZC in HC |- *.
      apply xdiv_zero; [rewrite HC|rewrite HS]; f_equal; field; auto.
    + left. assert (0 < A * B) by nra. assert (SP := sqrt_lt_R0 _ H).
      split; [|split].
      * destruct (Req_dec A 0) as [Z|]; [rewrite Z in H; lra|lra].
      * destruct (Req_dec B 0) as [Z|]; [rewrite Z in H; lra|lra].
      * rewrite (xval_xdiv _ _ _ _ HC HS).
        -- f_equal. field. split; [lra|assumption].
        -- apply Rgt_not_eq. apply Rmult_lt_0_compat; [exact SP|apply Rinv_0_lt_compat; lra].
Qed.

Lemma corr_range : forall x z, corr n x z W = XN \/ finite_in (-1) 1 (corr n x z W).
Proof.
  intros x z. destruct (corr_cases x z) as [(PA & PB & E)|[_ E]]; [right|left; exact E].
  exists (cross x z / sqrt (gw_var n W x * gw_var n W z)). split; [exact E|].
  assert (P : 0 < gw_var n W x * gw_var n W z) by nra.
  assert (SP := sqrt_lt_R0 _ P). assert (SS := sqrt_sqrt _ (Rlt_le _ _ P)).
  assert (CS := cross_cauchy x z).
  set (s := sqrt (gw_var n W x * gw_var n W z)) in *. set (c := cross x z) in *.
  assert (- s <= c <= s).
  { split; apply Rnot_lt_le; intros L; nra. }
  split; [apply Rmult_le_reg_r with s|apply Rmult_le_reg_r with s]; auto; unfold Rdiv;
    rewrite Rmult_assoc, Rinv_l, Rmult_1_r; lra.
Qed.
Lemma corr_defined : forall x z, 0 < gw_var n W x -> 0 < gw_var n W z -> finite_in (-1) 1 (corr n x z W).
Proof.
  intros x z PA PB. destruct (corr_range x z) as [E|H]; [|exact H].
  destruct (corr_cases x z) as [(_ & _ & H)|[[H|H] _]]; [rewrite E in H; discriminate|lra|lra].
Qed.
Lemma cross_sym : forall x z, cross x z = cross z x.
Proof. intros; apply bigsum_ext; intros; ring. Qed.
Lemma corr_sym : forall x z, xval (corr n x z W) = xval (corr n z x W).
Proof.
  intros x z. destruct (corr_cases x z) as [(A & B & ->)|[H E]]; destruct (corr_cases z x) as [(A' & B' & ->)|[H' E']]; try lra.
  - rewrite cross_sym, Rmult_comm with (r1 := gw_var n W x); reflexivity.
  - rewrite E, E'; reflexivity.
Qed.
Lemma cross_affine : forall x z a b c d, cross (fun j => a * x j + b) (fun j => c * z j + d) = a * c * cross x z.
Proof.
  intros; unfold cross. rewrite !mean_affine, <- bigsum_scal. apply bigsum_ext; intros; ring.
Qed.
Lemma corr_affine : forall x z a b c d, 0 < a -> 0 < c ->
  xval (corr n (fun j => a * x j + b) (fun j => c * z j + d) W) = xval (corr n x z W).
Proof.
  intros x z a b c d Pa Pc.
  assert (VA := var_affine x a b). assert (VB := var_affine z c d).
  assert (QA := var_nonneg x). assert (QB := var_nonneg z).
  destruct (corr_cases (fun j => a * x j + b) (fun j => c * z j + d)) as [(A & B & ->)|[H ->]];
  destruct (corr_cases x z) as [(A' & B' & ->)|[H' ->]]; try reflexivity.
  - rewrite cross_affine, VA, VB.
    replace (a * a * gw_var n W x * (c * c * gw_var n W z)) with ((a * c) * (a * c) * (gw_var n W x * gw_var n W z)) by ring.
    assert (0 < a * c) by nra. assert (P : 0 < gw_var n W x * gw_var n W z) by nra.
    assert (SP := sqrt_lt_R0 _ P).
    rewrite sqrt_mult; [|nra|lra]. rewrite (sqrt_square (a * c)) by lra.
    f_equal. field. split; [lra|split; lra].
  - exfalso. rewrite VA in A; rewrite VB in B. destruct H' as [H'|H']; rewrite H' in *; lra.
  - exfalso. assert (0 < a * a) by nra. assert (0 < c * c) by nra. rewrite VA, VB in H.
    destruct H as [H|H]; apply Rmult_integral in H as [H|H]; lra.
Qed.
End Moments.

Lemma normalise_proper : forall n w, proper_weights n w -> exists W, normalise n w = Some W /\
  (forall j, (j < n)%nat -> 0 <= W j) /\ bigsum n W = 1 /\ (forall j, (j < n)%nat -> (0 < W j <-> 0 < w j)) /\
  forall j, W j = w j / bigsum n w.
Proof.
  intros n w [H0 [k [Lk Pk]]].
  assert (P : 0 < bigsum n w).
  { assert (Q := bigsum_nonneg n w H0). destruct (Req_dec (bigsum n w) 0) as [Z|N]; [|lra].
    rewrite (bigsum_zero n w H0 Z k Lk) in Pk; lra. }
  assert (I := Rinv_0_lt_compat _ P).
  unfold normalise. destruct (Reqb (bigsum n w) 0) eqn:E; [apply Reqb_true in E; lra|].
  eexists; split; [reflexivity|]. repeat split.
  - intros j Lj. apply Rmult_le_pos; [auto|lra].
  - rewrite (bigsum_ext n _ (fun j => / bigsum n w * w j)) by (intros; unfold Rdiv; ring).
    rewrite bigsum_scal. field; lra.
  - intros A. unfold Rdiv in A. specialize (H0 j H). destruct (Req_dec (w j) 0) as [Z|]; [rewrite Z in A; lra|lra].
  - intros A. apply Rmult_lt_0_compat; assumption.
Qed.
