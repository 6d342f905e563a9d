(** Accuracy of the rounded residual sum of squares. *)
From Coq Require Import Reals Bool List ZArith Lra Lia Permutation.
From Verif Require Import Outcome XReal XRealFacts Sums RoundModel RoundSpec RoundProofs RoundAcc RgwssModel RgwssSpec RgwssProofs RgwssMain RnormModel RnormSpec RnormProofs.
Import ListNotations.
Local Open Scope R_scope.

Section P.
Variables (rn : R -> R) (big : R).
Hypothesis RN : rounding rn big.
Hypothesis FA : faithful rn.
Variables (n k : nat) (beta x : nat -> nat -> R) (y : nat -> R) (M : R) (tc tr : order).
Hypothesis TW : terms_within M n k beta x y.
Hypothesis NB : INR n <= p2 40.
Hypothesis KB : INR k <= p2 40.
Hypothesis TC : adds k tc.
Hypothesis TR : adds n tr.
Let K := INR k.
Let N := INR n.
Lemma K1 : 1 <= K. Proof. unfold K. rewrite <- (adds_length _ _ TC). apply (le_INR 1), leaves_pos. Qed.
Lemma N1 : 1 <= N. Proof. unfold N. rewrite <- (adds_length _ _ TR). apply (le_INR 1), leaves_pos. Qed.
Lemma KE : K * e <= / 4096. Proof. apply e_nat, KB. Qed.
Lemma NEr : N * e <= / 4096. Proof. apply e_nat, NB. Qed.
Lemma M0 : 0 < M. Proof. destruct TW as [[H _] _]. assert (P := p2_pos (-400)). lra. Qed.
Lemma eta_eM : 16 * eta <= e * M.
Proof.
  destruct TW as [[H _] _]. assert (E := e_small). apply Rle_trans with (e * p2 (-400)); [|apply Rmult_le_compat_l; lra].
  replace 16 with (p2 4) by (unfold p2; simpl; lra). unfold e, eta. rewrite <- !p2_add. apply p2_le. lia.
Qed.
Lemma eta_eMM : 16 * eta <= e * (M * M).
Proof.
  destruct TW as [[H _] _]. assert (E := e_small). assert (P := p2_pos (-400)).
  apply Rle_trans with (e * (p2 (-400) * p2 (-400))); [|apply Rmult_le_compat_l; [lra|apply Rmult_le_compat; lra]].
  replace 16 with (p2 4) by (unfold p2; simpl; lra). unfold e, eta. rewrite <- !p2_add. apply p2_le. lia.
Qed.

Section Row.
Variable j : nat.
Hypothesis J : (j < n)%nat.
Definition p (c : nat) : R := beta j c * x j c.
Definition ps (c : nat) : R := rn (p c).
Definition fit' : R := tsum rn ps tc.
Definition res' : R := rn (y j - fit').
Let r := residual_of k beta x y j.
Lemma p_sum : bigsum k (fun c => Rabs (p c)) <= K * M.
Proof.
  apply Rle_trans with (bigsum k (fun _ => 0 * 0 + M)); [apply bs_le; intros c C; rewrite Rmult_0_l, Rplus_0_l; apply TW; assumption|].
  rewrite (bs_lin k 0 M (fun _ => 0)). unfold K. lra.
Qed.
Lemma fit_close : Rabs (fit' - bigsum k p) <= 4 * (K * K) * (e * M) /\ bigsum k (fun c => Rabs (ps c)) <= 3 * K * M.
Proof.
  assert (E := e_small). assert (h0 := eta_pos). assert (m0 := M0). assert (k1 := K1). assert (EM := eta_eM).
  destruct (sum_close rn big RN FA k tc p ps 1 eta TC KE ltac:(lra) ltac:(lra)) as [A B].
  { intros c C. rewrite Rmult_1_l. apply (rn_err rn big RN FA). }
  cbv zeta in A, B. fold K in A, B. assert (P := p_sum). set (S := bigsum k (fun c => Rabs (p c))) in *.
  assert (e * S <= e * (K * M)) by (apply Rmult_le_compat_l; lra).
  assert (X : (1 + 3 * (K - 1)) * (e * S) <= 3 * K * (e * (K * M))).
  { assert (0 <= S) by (unfold S; rewrite <- lsumf_seq; apply lsumf_nonneg; intros; apply Rabs_pos).
    apply Rmult_le_compat; try lra. apply Rmult_le_pos; lra. }
  assert (eM0 : 0 <= e * M) by (apply Rmult_le_pos; lra).
  assert (KK : K <= K * K) by nra.
  assert (Y : K * (4 * eta) <= K * K * (e * M)) by (apply Rmult_le_compat; lra).
  split; [fold fit' in A; lra|].
  assert (e * M <= M) by nra. assert (K * eta <= K * M) by (apply Rmult_le_compat_l; lra). lra.
Qed.
Lemma r_abs : Rabs r <= 2 * (K * M).
Proof.
  assert (k1 := K1). assert (m0 := M0). destruct TW as [_ H]. destruct (H j J) as [Y _]. unfold r, residual_of.
  assert (A := bs_abs k p). assert (B := p_sum). assert (T := Rabs_triang (y j) (- bigsum k p)). rewrite Rabs_Ropp in T. fold p. change (Rabs (y j - bigsum k p) <= 2 * (K * M)).
  unfold Rminus. assert (M <= K * M) by nra. lra.
Qed.
Lemma diff_close : Rabs ((y j - fit') - r) <= 4 * (K * K) * (e * M).
Proof. unfold r, residual_of. fold p. change (Rabs (y j - fit' - (y j - bigsum k p)) <= 4 * (K * K) * (e * M)). replace (y j - fit' - (y j - bigsum k p)) with (- (fit' - bigsum k p)) by ring. rewrite Rabs_Ropp. apply fit_close. Qed.
Lemma small_part : 8 * (K * K) * (e * M) <= / 4 * (K * M).
Proof. assert (X := KE). assert (k1 := K1). assert (m0 := M0). replace (8 * (K * K) * (e * M)) with (8 * (K * e) * (K * M)) by ring. apply Rmult_le_compat_r; [apply Rmult_le_pos; lra|lra]. Qed.
Lemma diff_abs : Rabs (y j - fit') <= 3 * (K * M).
Proof.
  assert (A := Rabs_le_add (y j - fit') r). assert (B := r_abs). assert (C := diff_close). assert (D := small_part).
  assert (k1 := K1). assert (m0 := M0). assert (0 < K * M) by (apply Rmult_lt_0_compat; lra). assert (E := e_small). lra.
Qed.
Lemma res_close : Rabs (res' - r) <= 8 * (K * K) * (e * M).
Proof.
  assert (E := e_small). assert (k1 := K1). assert (m0 := M0). assert (A := rn_err rn big RN FA (y j - fit')). fold res' in A.
  assert (B := diff_abs). assert (C := diff_close). assert (D := Rabs_add3 res' (y j - fit') r). assert (EM := eta_eM).
  assert (e * Rabs (y j - fit') <= e * (3 * (K * M))) by (apply Rmult_le_compat_l; lra).
  assert (eM0 : 0 <= e * M) by (apply Rmult_le_pos; lra). assert (KK : K * (e * M) <= K * K * (e * M)) by (apply Rmult_le_compat_r; nra).
  assert (e * M <= K * (e * M)) by nra. lra.
Qed.
Lemma square_close : Rabs (rn (res' * res') - r ^ 2) <= 1 * e * Rabs (r ^ 2) + 50 * (K ^ 3) * (e * (M * M)).
Proof.
  assert (E := e_small). assert (k1 := K1). assert (m0 := M0). assert (A := rn_err rn big RN FA (res' * res')).
  assert (B := res_close). assert (C := r_abs). assert (D := small_part). assert (h := eta_eMM).
  set (d := res' - r) in *. assert (R' : res' = r + d) by (unfold d; ring).
  assert (F : Rabs (res' * res' - r ^ 2) <= 40 * K ^ 3 * (e * (M * M))).
  { replace (res' * res' - r ^ 2) with (d * (2 * r + d)) by (rewrite R'; ring). rewrite Rabs_mult.
    replace (40 * K ^ 3 * (e * (M * M))) with (8 * (K * K) * (e * M) * (5 * (K * M))) by ring.
    apply Rmult_le_compat; [apply Rabs_pos|apply Rabs_pos|exact B|]. eapply Rle_trans; [apply Rabs_triang|]. rewrite Rabs_mult, (Rabs_right 2) by lra.
    assert (0 < K * M) by (apply Rmult_lt_0_compat; lra). lra. }
  assert (G := Rabs_add3 (rn (res' * res')) (res' * res') (r ^ 2)). assert (H := Rabs_le_add (res' * res') (r ^ 2)).
  set (Z := e * (M * M)) in *. assert (Z0 : 0 <= Z) by (unfold Z; apply Rmult_le_pos; [lra|apply Rmult_le_pos; lra]).
  assert (K3 : 1 <= K ^ 3) by (apply pow_R1_Rle; exact k1). assert (KZ : Z <= K ^ 3 * Z) by nra.
  assert (e * Rabs (res' * res') <= e * (Rabs (r ^ 2) + 40 * K ^ 3 * Z)) by (apply Rmult_le_compat_l; lra).
  assert (e * (40 * K ^ 3 * Z) <= / 8 * (40 * K ^ 3 * Z)) by (apply Rmult_le_compat_r; lra). lra.
Qed.
End Row.

Lemma rss_size : bigsum n (fun j => Rabs (residual_of k beta x y j ^ 2)) = rss_of n k beta x y.
Proof. unfold rss_of. apply bs_ext. intros j _. rewrite Rabs_right; [reflexivity|]. apply Rle_ge, pow2_ge_0. Qed.
Lemma rss_nonneg : 0 <= rss_of n k beta x y.
Proof. rewrite <- rss_size, <- lsumf_seq. apply lsumf_nonneg. intros; apply Rabs_pos. Qed.
Lemma rss_le : rss_of n k beta x y <= N * (4 * (K * M * (K * M))).
Proof.
  rewrite <- rss_size. apply Rle_trans with (bigsum n (fun _ => 0 * 0 + 4 * (K * M * (K * M)))); [apply bs_le; intros j J|rewrite (bs_lin n 0 _ (fun _ => 0)); unfold N; lra].
  assert (A := r_abs j J). rewrite <- RPow_abs. rewrite Rmult_0_l, Rplus_0_l. replace (4 * (K * M * (K * M))) with ((2 * (K * M)) ^ 2) by ring. apply pow_incr. split; [apply Rabs_pos|exact A].
Qed.
Definition sq (j : nat) : R := rn (res' j * res' j).
Lemma KM_le : K * M <= p2 440.
Proof. destruct TW as [[_ H] _]. replace (p2 440) with (p2 40 * p2 400) by (rewrite <- p2_add; reflexivity). assert (k1 := K1). assert (m0 := M0). apply Rmult_le_compat; [lra|lra|exact KB|exact H]. Qed.
Lemma rss_close : Rabs (tsum rn sq tr - rss_of n k beta x y) <= N * p2 (-49) * rss_of n k beta x y + N * K ^ 3 * p2 (-45) * M ^ 2 /\
  lsumf (fun j => Rabs (sq j)) (leaves tr) <= p2 990.
Proof.
  assert (E := e_small). assert (h0 := eta_pos). assert (k1 := K1). assert (n1 := N1). assert (m0 := M0). assert (h := eta_eMM).
  set (Z := e * (M * M)) in *. assert (Z0 : 0 <= Z) by (unfold Z; apply Rmult_le_pos; [lra|apply Rmult_le_pos; lra]).
  assert (K3 : 1 <= K ^ 3) by (apply pow_R1_Rle; exact k1). assert (KZ : Z <= K ^ 3 * Z) by nra.
  destruct (sum_close rn big RN FA n tr (fun j => residual_of k beta x y j ^ 2) sq 1 (50 * K ^ 3 * Z) TR NEr ltac:(lra) ltac:(lra)) as [A B].
  { intros j J. apply (square_close j J). }
  cbv zeta in A, B. rewrite rss_size in A, B. fold N in A, B. fold (rss_of n k beta x y) in A. assert (R0 := rss_nonneg). assert (RL := rss_le).
  set (RSS := rss_of n k beta x y) in *. split.
  - replace (p2 (-49)) with (8 * e) by (unfold e; replace 8 with (p2 3) by (unfold p2; simpl; lra); rewrite <- p2_add; reflexivity).
    replace (p2 (-45)) with (128 * e) by (unfold e; replace 128 with (p2 7) by (unfold p2; simpl; lra); rewrite <- p2_add; reflexivity).
    replace (N * K ^ 3 * (128 * e) * M ^ 2) with (N * (128 * (K ^ 3 * Z))) by (unfold Z; ring).
    assert (EA : 0 <= e * RSS) by (apply Rmult_le_pos; lra).
    assert ((1 + 3 * (N - 1)) * (e * RSS) <= N * 8 * (e * RSS)) by (apply Rmult_le_compat_r; lra).
    assert (N * (2 * (50 * K ^ 3 * Z) + 2 * eta) <= N * (128 * (K ^ 3 * Z))) by (apply Rmult_le_compat_l; lra). lra.
  - rewrite (adds_sum _ _ _ TR). eapply Rle_trans; [exact B|].
    assert (KM := KM_le). assert (KM0 : 0 < K * M) by (apply Rmult_lt_0_compat; lra).
    assert (Q : K * M * (K * M) <= p2 880) by (change 880%Z with (440 + 440)%Z; rewrite p2_add; apply Rmult_le_compat; lra).
    assert (KZ2 : K ^ 3 * Z <= / 4096 * (K * M * (K * M))).
    { unfold Z. replace (K ^ 3 * (e * (M * M))) with (K * e * (K * M * (K * M))) by ring. apply Rmult_le_compat_r; [left; apply Rmult_lt_0_compat; lra|exact KE]. }
    assert (N * (50 * K ^ 3 * Z) <= N * p2 880) by (apply Rmult_le_compat_l; lra).
    assert (N * (4 * (K * M * (K * M))) <= N * (4 * p2 880)) by (apply Rmult_le_compat_l; lra).
    assert (NP : N * p2 880 <= p2 920) by (change 920%Z with (40 + 880)%Z; rewrite p2_add; apply Rmult_le_compat_r; [left; apply p2_pos|exact NB]).
    replace (p2 990) with (p2 70 * p2 920) by (rewrite <- p2_add; reflexivity).
    assert (p2 4 <= p2 70) by (apply p2_le; lia). replace (p2 4) with 16 in H1 by (unfold p2; simpl; lra).
    assert (16 * p2 920 <= p2 70 * p2 920) by (apply Rmult_le_compat_r; [left; apply p2_pos|exact H1]). assert (P9 := p2_pos 920). lra.
Qed.
Lemma rss_val fb fx fy : reads2 n k fb beta -> reads2 n k fx x -> reads n fy y -> xval (r_rss rn big tc tr fb fx fy) = Some (tsum rn sq tr).
Proof.
  intros FB FX FY. assert (KM := KM_le). assert (k1 := K1). assert (m0 := M0).
  unfold r_rss. apply (osum_val rn big RN FA); [|rewrite (adds_length _ _ TR); assert (X := NEr); fold N; lra|apply rss_close].
  intros j Hj. assert (J := adds_in _ _ _ TR Hj).
  assert (D3 : Rabs (y j - fit' j) <= p2 442).
  { eapply Rle_trans; [apply (diff_abs j J)|]. replace (p2 442) with (4 * p2 440); [assert (P := p2_pos 440); lra|]. replace 4 with (p2 2) by (unfold p2; simpl; lra). rewrite <- p2_add. reflexivity. }
  assert (R : xval (r_residual rn big tc fb fx fy j) = Some (res' j)).
  { unfold r_residual, res'. apply (v_sub rn big RN 442); [lia|apply FY, J| |exact D3].
    unfold fit'. apply (osum_val rn big RN FA); [|rewrite (adds_length _ _ TC); assert (X := KE); fold K; lra|].
    - intros c Hc. assert (C := adds_in _ _ _ TC Hc). apply (v_mul rn big RN 400); [lia|apply FB; assumption|apply FX; assumption|].
      destruct TW as [[_ MB] H]. unfold bnd. eapply Rle_trans; [apply (H j J); exact C|exact MB].
    - rewrite (adds_sum _ _ _ TC). eapply Rle_trans; [apply (fit_close j J)|]. apply Rle_trans with (p2 2 * p2 440); [|rewrite <- p2_add; apply p2_le; lia].
      replace (p2 2) with 4 by (unfold p2; simpl; lra). assert (P := p2_pos 440). lra. }
  apply (v_mul rn big RN 884); [lia|exact R|exact R|]. change 884%Z with (442 + 442)%Z. apply bnd_mul; apply (rbnd rn big RN); try lia; exact D3.
Qed.
Lemma sq_nonneg j : 0 <= sq j.
Proof. apply (pos rn big RN). assert (X := Rle_0_sqr (res' j)). exact X. Qed.
End P.

Lemma rss_main rn big : rounding rn big -> faithful rn -> forall n k beta x y M fb fx fy tc tr,
  terms_within M n k beta x y -> INR n <= p2 40 -> INR k <= p2 40 -> reads2 n k fb beta -> reads2 n k fx x -> reads n fy y -> adds k tc -> adds n tr ->
  exists v, xval (r_rss rn big tc tr fb fx fy) = Some v /\ 0 <= v /\
  Rabs (v - rss_of n k beta x y) <= INR n * p2 (-49) * rss_of n k beta x y + INR n * INR k ^ 3 * p2 (-45) * M ^ 2.
Proof.
  intros RN FA n k beta x y M fb fx fy tc tr TW NB KB FB FX FY TC TR. eexists.
  split; [apply (rss_val rn big RN FA n k beta x y M tc tr TW NB KB TC TR fb fx fy FB FX FY)|].
  split; [apply (tsum_nonneg rn big RN); intros; apply (sq_nonneg rn big RN)|].
  apply (rss_close rn big RN FA n k beta x y M tc tr TW NB KB TC TR).
Qed.
