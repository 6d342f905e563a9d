(** Values of the remaining summary statistics. *)
From Coq Require Import Reals Bool List Arith Lia Lra Psatz.
From Verif Require Import Outcome XReal XRealFacts KernelSpec Sums DiagModel DiagProofs GwssModel GwssSpec GwssProofs GwssProofs2 GwssCases.
Import ListNotations.
Local Open Scope R_scope.

Lemma scaled_sum : forall n w f, bigsum n w <> 0 ->
  bigsum n (fun j => w j / bigsum n w * f j) = bigsum n (fun j => w j * f j) / bigsum n w.
Proof.
  intros n w f N. rewrite (bigsum_ext n _ (fun j => / bigsum n w * (w j * f j))) by (intros; unfold Rdiv; ring).
  rewrite bigsum_scal. unfold Rdiv; ring.
Qed.
Lemma proper_pos : forall n w, proper_weights n w -> 0 < bigsum n w.
Proof.
  intros n w [H0 [k [Lk Pk]]]. assert (Q := bigsum_nonneg n w H0). destruct (Req_dec (bigsum n w) 0) as [Z|N]; [|lra].
  rewrite (bigsum_zero n w H0 Z k Lk) in Pk; lra.
Qed.

Lemma C58_shape_main : forall n w x, proper_weights n w ->
  let T := bigsum n w in
  let m := bigsum n (fun j => w j * x j) / T in
  let v := bigsum n (fun j => w j * (x j - m) ^ 2) / T in
  exists W, normalise n w = Some W /\
  xval (gw_sd n W x) = Some (sqrt v) /\
  (0 < v -> xval (gw_skew n W x) = Some (bigsum n (fun j => w j * (x j - m) ^ 3) / T / (v * sqrt v))) /\
  (v = 0 -> gw_skew n W x = XN) /\
  (m <> 0 -> xval (gw_cv n W x) = Some (sqrt v / m)).
Proof.
  intros n w x H T m v. assert (P := proper_pos n w H). destruct (normalise_proper n w H) as [W [E [W0 [W1 [_ EW]]]]].
  exists W; split; [exact E|].
  assert (Em : gw_mean n W x = m).
  { unfold gw_mean. rewrite (bigsum_ext n _ (fun j => w j / bigsum n w * x j)) by (intros; rewrite EW; reflexivity).
    apply scaled_sum; lra. }
  assert (Ev : gw_var n W x = v).
  { unfold gw_var; cbv zeta. rewrite Em.
    rewrite (bigsum_ext n _ (fun j => w j / bigsum n w * (x j - m) ^ 2)) by (intros; rewrite EW; ring).
    apply scaled_sum; lra. }
  assert (V0 := var_nonneg n W W0 x). rewrite Ev in V0.
  assert (Sd : xval (gw_sd n W x) = Some (sqrt v)).
  { unfold gw_sd. rewrite Ev. apply xval_xsqrt; [reflexivity|exact V0]. }
  split; [exact Sd|]. split; [|split].
  - intros Pv. rewrite (skew_value n W x) by (rewrite Ev; exact Pv). rewrite Em, Ev. f_equal. f_equal.
    rewrite (bigsum_ext n _ (fun j => w j / bigsum n w * (x j - m) ^ 3)) by (intros; rewrite EW; ring).
    apply scaled_sum; lra.
  - intros Z. unfold gw_skew; cbv zeta.
    assert (Q : bigsum n (fun j => W j * ((x j - gw_mean n W x) * (x j - gw_mean n W x) * (x j - gw_mean n W x))) = 0).
    { transitivity (bigsum n (fun _ => 0)); [|apply bigsum_0]. apply bigsum_ext; intros j Lj.
      assert (Zj := bigsum_zero n (fun j => W j * ((x j - gw_mean n W x) * (x j - gw_mean n W x)))
        (fun j L => Rmult_le_pos _ _ (W0 j L) (Rle_0_sqr _)) (eq_trans Ev Z) j Lj). cbv beta in Zj.
      rewrite <- (Rmult_0_l (x j - gw_mean n W x)), <- Zj. ring. }
    rewrite Q, Ev, Z. apply xdiv_zero; [reflexivity|]. rewrite Z, sqrt_0 in Sd.
    rewrite (xval_xmul _ _ _ _ (eq_refl : xval (XF 0) = Some 0) Sd). f_equal; ring.
  - intros N. unfold gw_cv. apply xval_xdiv; [exact Sd|cbn [xval]; rewrite Em; reflexivity|exact N].
Qed.

Lemma sum_sq_lt1 : forall n W i k, (forall j, (j < n)%nat -> 0 <= W j) -> bigsum n W = 1 ->
  (i < n)%nat -> (k < n)%nat -> i <> k -> 0 < W i -> 0 < W k -> 0 < 1 - bigsum n (fun j => W j * W j).
Proof.
  intros n W i k W0 W1 Li Lk N Pi Pk.
  assert (E : 1 - bigsum n (fun j => W j * W j) = bigsum n (fun j => W j * (1 - W j))).
  { rewrite (bigsum_ext n (fun j => W j * (1 - W j)) (fun j => W j + -1 * (W j * W j))) by (intros; ring).
    rewrite bigsum_plus, bigsum_scal, W1. ring. }
  rewrite E.
  assert (Q : forall j, (j < n)%nat -> 0 <= W j * (1 - W j)).
  { intros j Lj. assert (A1 := W_le1 n W W0 W1 j Lj). assert (A0 := W0 j Lj). nra. }
  assert (G := bigsum_nonneg n _ Q).
  destruct (Req_dec (bigsum n (fun j => W j * (1 - W j))) 0) as [Z|NZ]; [|lra].
  assert (Zi := bigsum_zero n _ Q Z i Li). cbv beta in Zi. apply Rmult_integral in Zi as [Zi|Zi]; [lra|].
  assert (W i = 1) by lra. assert (B := one_point n W W0 W1 k i Lk Li H (not_eq_sym N)). lra.
Qed.

Lemma C59_meaning_main : forall n w xj xk, proper_weights n w ->
  let T := bigsum n w in
  let mean x := bigsum n (fun j => w j * x j) / T in
  let cov x z := bigsum n (fun j => w j * ((x j - mean x) * (z j - mean z))) / T in
  exists W, normalise n w = Some W /\
  (forall i k, (i < n)%nat -> (k < n)%nat -> i <> k -> 0 < w i -> 0 < w k ->
     xval (covwt n xj xk W) = Some (cov xj xk / (1 - bigsum n (fun j => (w j / T) ^ 2)))) /\
  (0 < cov xj xj -> 0 < cov xk xk -> xval (corr n xj xk W) = Some (cov xj xk / sqrt (cov xj xj * cov xk xk))) /\
  (cov xj xj = 0 \/ cov xk xk = 0 -> corr n xj xk W = XN).
Proof.
  intros n w xj xk H T mean cov. assert (P := proper_pos n w H). destruct (normalise_proper n w H) as [W [E [W0 [W1 [PW EW]]]]].
  exists W; split; [exact E|].
  assert (Em : forall x, gw_mean n W x = mean x).
  { intros x. unfold gw_mean. rewrite (bigsum_ext n _ (fun j => w j / bigsum n w * x j)) by (intros; rewrite EW; reflexivity).
    apply scaled_sum; lra. }
  assert (Ec : forall x z, cross n W x z = cov x z).
  { intros x z. unfold cross. rewrite !Em.
    rewrite (bigsum_ext n _ (fun j => w j / bigsum n w * ((x j - mean x) * (z j - mean z)))) by (intros; rewrite EW; ring).
    apply scaled_sum; lra. }
  split; [|split].
  - intros i k Li Lk N Pi Pk. rewrite (covwt_eq n W W0). rewrite Ec.
    assert (S := sum_sq_lt1 n W i k W0 W1 Li Lk N (proj2 (PW i Li) Pi) (proj2 (PW k Lk) Pk)).
    rewrite (bigsum_ext n (fun j => (w j / T) ^ 2) (fun j => W j * W j)) by (intros; rewrite EW; unfold T; ring).
    apply xval_xdiv; [reflexivity|reflexivity|lra].
  - intros Pj Pk. destruct (corr_cases n W W0 W1 xj xk) as [(_ & _ & Q)|[[Z|Z] _]].
    + rewrite Q, <- !cross_self, !Ec. reflexivity.
    + rewrite <- cross_self, Ec in Z; lra.
    + rewrite <- cross_self, Ec in Z; lra.
  - intros Z. destruct (corr_cases n W W0 W1 xj xk) as [(A & B & _)|[_ Q]]; [|exact Q].
    rewrite <- cross_self, Ec in A, B. lra.
Qed.
Lemma C59_spearman_meaning_main : forall sort_index, sorts_indices sort_index ->
  forall n w xj xk, proper_weights n w -> exists W, normalise n w = Some W /\
  spearman sort_index n xj xk W =
  corr n (fun i => nth i (rank sort_index (map xj (seq 0 n))) 0) (fun i => nth i (rank sort_index (map xk (seq 0 n))) 0) W.
Proof.
  intros si SI n w xj xk H. destruct (normalise_proper n w H) as [W [E [W0 _]]].
  exists W; split; [exact E|]. exact (spearman_corr si n xj xk W W0).
Qed.

(** The three quartile statistics from the quartiles. *)
Lemma C60_from_quartiles_main : forall sort_index n x w q1 q2 q3, findq sort_index n x w = Ok (q1, q2, q3) ->
  exists qi, quartile_stats sort_index n x w = Ok (q2, q3 - q1, qi) /\
  (q1 <> q3 -> xval qi = Some ((2 * q2 - q3 - q1) / (q3 - q1))).
Proof.
  intros si n x w q1 q2 q3 E. unfold quartile_stats. rewrite E; cbn [obind].
  eexists; split; [reflexivity|]. intros N. apply xval_xdiv; [reflexivity|reflexivity|lra].
Qed.
