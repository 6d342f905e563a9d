(** Statements about rounded means and variances, and a constant column in binary64. *)
From Coq Require Import Reals Bool List ZArith Lra Lia Permutation.
From Verif Require Import Outcome XReal XRealFacts KernelProofs Sums RoundModel RoundSpec RoundProofs RoundAcc Binary64 RdistSpec RdistProofs RdistCases RoundAcc2 RgwssModel RgwssSpec RgwssProofs RgwssMain.
Import ListNotations.
Local Open Scope R_scope.

Lemma e16 k : p2 k * e = p2 (k - 52). Proof. unfold e. rewrite <- p2_add. reflexivity. Qed.
Lemma mean_main rn big : rounding rn big -> faithful rn -> forall n w x M fw fx t1 t2,
  kernel_weights n w -> within M n x -> reads n fw w -> reads n fx x -> adds n t1 -> adds n t2 ->
  exists m, xval (r_mean rn big t1 t2 fw fx) = Some m /\ Rabs (m - mean_of n w x) <= INR n * p2 (-48) * M.
Proof.
  intros RN FA n w x M fw fx t1 t2 KW WI FW FX T1 T2. eexists. split; [eapply (mean_val rn big RN FA n w KW t1 T1 x M t2 fw fx); eauto|].
  eapply Rle_trans; [apply (mean_err rn big RN FA n w KW t1 T1 x M t2 WI T2)|]. right.
  replace 16 with (p2 4) by (unfold p2; simpl; lra). replace (p2 4 * INR n * e * M) with (INR n * (p2 4 * e) * M) by ring. rewrite e16. reflexivity.
Qed.
Lemma variance_main rn big : rounding rn big -> faithful rn -> forall n w x M fw fx t1 t2 t3,
  kernel_weights n w -> within M n x -> reads n fw w -> reads n fx x -> adds n t1 -> adds n t2 -> adds n t3 ->
  exists v, xval (r_variance rn big t1 t2 t3 fw fx) = Some v /\ 0 <= v /\
  Rabs (v - variance_of n w x) <= INR n * p2 (-44) * M ^ 2.
Proof.
  intros RN FA n w x M fw fx t1 t2 t3 KW WI FW FX T1 T2 T3. eexists. split; [eapply (var_val rn big RN FA n w KW t1 T1 x M t2 t3 fw fx); eauto|].
  split; [apply (var_nonneg rn big RN FA n w KW t1 T1 x t2 t3 T3)|].
  eapply Rle_trans; [apply (var_err rn big RN FA n w KW t1 T1 x M t2 t3 WI T2 T3)|]. right.
  replace 256 with (p2 8) by (unfold p2; simpl; lra). replace (p2 8 * INR n * e * (M * M)) with (INR n * (p2 8 * e) * M ^ 2) by ring. rewrite e16. reflexivity.
Qed.
Lemma sqrt_diff a b : 0 <= a -> 0 <= b -> Rabs (sqrt a - sqrt b) <= sqrt (Rabs (a - b)).
Proof.
  assert (H : forall a b, 0 <= b -> b <= a -> Rabs (sqrt a - sqrt b) <= sqrt (Rabs (a - b))).
  { clear. intros a b B L. assert (P := sqrt_pos a). assert (Q := sqrt_pos b). assert (sqrt b <= sqrt a) by (apply sqrt_le_1_alt; lra).
    rewrite !Rabs_right by lra. apply Rsqr_incr_0_var; [|apply sqrt_pos]. rewrite Rsqr_sqrt by lra. unfold Rsqr.
    assert (sqrt a * sqrt a = a) by (apply sqrt_sqrt; lra). assert (sqrt b * sqrt b = b) by (apply sqrt_sqrt; lra). nra. }
  intros A B. destruct (Rle_dec b a) as [L|L]; [apply H; lra|]. rewrite Rabs_minus_sym, (Rabs_minus_sym a). apply H; lra.
Qed.
Lemma sd_main rn big : rounding rn big -> faithful rn -> forall n w x M fw fx t1 t2 t3,
  kernel_weights n w -> within M n x -> reads n fw w -> reads n fx x -> adds n t1 -> adds n t2 -> adds n t3 ->
  exists s, xval (r_sd rn big t1 t2 t3 fw fx) = Some s /\ 0 <= s /\
  Rabs (s - sqrt (variance_of n w x)) <= sqrt (INR n) * p2 (-21) * M.
Proof.
  intros RN FA n w x M fw fx t1 t2 t3 KW WI FW FX T1 T2 T3.
  destruct (variance_main rn big RN FA n w x M fw fx t1 t2 t3 KW WI FW FX T1 T2 T3) as (v & V & P & E).
  assert (MP := M_pos n x M WI). destruct (N_range n w KW) as [N1 N2]. assert (e0 := e_small).
  assert (ME := eta_M n x M WI). destruct ME as [ME _].
  assert (V0 : 0 <= variance_of n w x <= 4 * (M * M)).
  { rewrite (var_om n w KW x). assert (O := om_range n w KW). assert (D := d_abs n w KW x M WI).
    assert (B : forall j, (j < n)%nat -> 0 <= (x j - mean_of n w x) * (x j - mean_of n w x) <= 4 * (M * M)).
    { intros j Hj. specialize (D j Hj). change (Rabs (x j - mean_of n w x) <= 2 * M) in D. revert D. generalize (x j - mean_of n w x). clear - MP. intros r D.
      assert (H : Rabs r * Rabs r <= 2 * M * (2 * M)) by (apply Rmult_le_compat; auto; apply Rabs_pos).
      assert (Q := Rle_0_sqr r). unfold Rsqr in Q. rewrite <- Rabs_mult, Rabs_right in H by lra. lra. }
    split.
    - apply Rle_trans with (bigsum n (fun j => 0 * om n w j)); [rewrite bs_scal; lra|]. apply bs_le. intros j Hj. specialize (O j Hj). specialize (B j Hj). rewrite Rmult_0_l. apply Rmult_le_pos; lra.
    - apply Rle_trans with (bigsum n (fun j => 4 * (M * M) * om n w j)); [|rewrite bs_scal, om_sum by exact KW; lra]. apply bs_le. intros j Hj. specialize (O j Hj). specialize (B j Hj). rewrite Rmult_comm. apply Rmult_le_compat_r; lra. }
  assert (U : v <= 5 * (M * M)).
  { assert (X := Rle_abs (v - variance_of n w x)). assert (p2 (-44) = 256 * e) by (replace 256 with (p2 8) by (unfold p2; simpl; lra); rewrite e16; reflexivity). rewrite H in E. nra. }
  assert (SV : sqrt v <= 3 * M).
  { apply Rle_trans with (sqrt (3 * M * (3 * M))); [apply sqrt_le_1_alt; nra|rewrite sqrt_square; lra]. }
  assert (SP := sqrt_pos v). exists (rn (sqrt v)). split; [|split; [apply (pos rn big RN), sqrt_pos|]].
  - unfold r_sd. apply (rd_val rn big RN 402); [lia|apply xval_xsqrt; auto|]. apply bnd_of. split; [lra|]. destruct WI as [[_ MB] _].
    replace (p2 402) with (4 * p2 400); [lra|]. change 402%Z with (2 + 400)%Z. rewrite p2_add. f_equal. unfold p2; simpl; lra.
  - assert (A := rn_err rn big RN FA (sqrt v)). rewrite (Rabs_right (sqrt v)) in A by lra.
    assert (B := sqrt_diff v (variance_of n w x) P (proj1 V0)).
    assert (C : sqrt (Rabs (v - variance_of n w x)) <= sqrt (INR n) * p2 (-22) * M).
    { apply Rle_trans with (sqrt (INR n * (p2 (-22) * p2 (-22) * (M * M)))).
      - apply sqrt_le_1_alt. rewrite <- p2_add. change (-22 + -22)%Z with (-44)%Z. lra.
      - right. rewrite sqrt_mult; [|lra|apply Rmult_le_pos; [left; apply Rmult_lt_0_compat; apply p2_pos|apply Rmult_le_pos; lra]].
        replace (p2 (-22) * p2 (-22) * (M * M)) with (p2 (-22) * M * (p2 (-22) * M)) by ring. rewrite sqrt_square by (apply Rmult_le_pos; [left; apply p2_pos|lra]). ring. }
    assert (S1 : 1 <= sqrt (INR n)) by (rewrite <- sqrt_1; apply sqrt_le_1_alt; exact N1).
    assert (E5 : 5 * e <= p2 (-22)).
    { apply Rle_trans with (p2 3 * e); [apply Rmult_le_compat_r; [lra|unfold p2; simpl; lra]|]. rewrite e16. apply p2_le. lia. }
    assert (E6 : 5 * e * M <= sqrt (INR n) * p2 (-22) * M).
    { apply Rmult_le_compat_r; [lra|]. apply Rle_trans with (1 * p2 (-22)); [lra|]. apply Rmult_le_compat_r; [left; apply p2_pos|exact S1]. }
    assert (E7 : p2 (-21) = 2 * p2 (-22)) by (rewrite <- p2_1, <- p2_add; reflexivity).
    assert (T : Rabs (rn (sqrt v) - sqrt (variance_of n w x)) <= Rabs (rn (sqrt v) - sqrt v) + Rabs (sqrt v - sqrt (variance_of n w x))).
    { replace (rn (sqrt v) - sqrt (variance_of n w x)) with ((rn (sqrt v) - sqrt v) + (sqrt v - sqrt (variance_of n w x))) by ring. apply Rabs_triang. }
    assert (e * sqrt v <= e * (3 * M)) by (apply Rmult_le_compat_l; lra). assert (0 <= e * M) by (apply Rmult_le_pos; lra). rewrite E7. lra.
Qed.

(** Evaluation of binary64. *)
Lemma b64_at k z f : (-1074 <= k)%Z -> (2 ^ 52 <= z < 2 ^ 53)%Z -> 0 <= f < 1 ->
  binary64 ((IZR z + f) * p2 k) = IZR (z + (if Rltb f (1 / 2) then 0 else if Rltb (1 / 2) f then 1 else if Z.even z then 0 else 1)) * p2 k.
Proof.
  intros K Z F. assert (P := p2_pos k). set (x := (IZR z + f) * p2 k).
  assert (Z1 : IZR (2 ^ 52) <= IZR z) by (apply IZR_le; lia). assert (Z2 : IZR z + 1 <= IZR (2 ^ 53)) by (rewrite <- plus_IZR; apply IZR_le; lia).
  assert (Z0 : 0 < IZR (2 ^ 52)) by (apply IZR_lt; reflexivity).
  assert (EX : exponent x = (52 + k)%Z).
  { apply exponent_unique. replace (52 + k + 1)%Z with (53 + k)%Z by lia. rewrite !p2_add, (p2_int 52), (p2_int 53) by lia. unfold x. split; [apply Rmult_le_compat_r; lra|apply Rmult_lt_compat_r; lra]. }
  assert (S : spacing x = p2 k) by (unfold spacing; rewrite EX; f_equal; lia).
  rewrite b64_pos by (unfold x; apply Rmult_lt_0_compat; lra). rewrite S.
  assert (I : x / p2 k = IZR z + f) by (unfold x; field; lra). rewrite I. unfold nearest. rewrite (Int_part_unique _ z) by lra. cbv zeta.
  replace (IZR z + f - IZR z) with f by ring. destruct (Rltb f (1 / 2)), (Rltb (1 / 2) f), (Z.even z); rewrite ?Z.add_0_r; ring.
Qed.
Lemma at_exact k z x : (-1074 <= k)%Z -> (2 ^ 52 <= z < 2 ^ 53)%Z -> x = IZR z * p2 k -> binary64 x = x.
Proof.
  intros K Z ->. replace (IZR z * p2 k) with ((IZR z + 0) * p2 k) at 1 by ring. rewrite b64_at by (auto; lra).
  rewrite (proj2 (Rltb_true 0 (1 / 2))) by lra. rewrite Z.add_0_r. reflexivity.
Qed.
Lemma at_down k z f x : (-1074 <= k)%Z -> (2 ^ 52 <= z < 2 ^ 53)%Z -> 0 <= f < 1 / 2 -> x = (IZR z + f) * p2 k -> binary64 x = IZR z * p2 k.
Proof. intros K Z F ->. rewrite b64_at by (auto; lra). rewrite (proj2 (Rltb_true f (1 / 2))) by lra. rewrite Z.add_0_r. reflexivity. Qed.
Lemma at_up k z f x : (-1074 <= k)%Z -> (2 ^ 52 <= z < 2 ^ 53)%Z -> 1 / 2 < f < 1 -> x = (IZR z + f) * p2 k -> binary64 x = IZR (z + 1) * p2 k.
Proof. intros K Z F ->. rewrite b64_at by (auto; lra). rewrite (proj2 (Rltb_false f (1 / 2))), (proj2 (Rltb_true (1 / 2) f)) by lra. reflexivity. Qed.
Lemma at_tie k z x : (-1074 <= k)%Z -> (2 ^ 52 <= z < 2 ^ 53)%Z -> x = (IZR z + 1 / 2) * p2 k -> binary64 x = IZR (if Z.even z then z else z + 1) * p2 k.
Proof.
  intros K Z ->. rewrite b64_at by (auto; lra). rewrite (proj2 (Rltb_false (1 / 2) (1 / 2))) by lra. destruct (Z.even z); rewrite ?Z.add_0_r; reflexivity.
Qed.

(** Two observations of weights 1/4 and 1, both equal to 3. *)
Definition two : order := Node (Leaf 0) (Leaf 1).
Definition cw (j : nat) : R := match j with O => / 4 | _ => 1 end.
Definition cx (j : nat) : R := 3.
Lemma two_adds : adds 2 two. Proof. apply Permutation_refl. Qed.
Lemma cw_weights : kernel_weights 2 cw.
Proof.
  split; [|split].
  - intros [|j] _; cbn [cw]; lra.
  - exists 1%nat. split; [lia|]. cbn [cw]. rewrite <- p2_0. apply p2_le. lia.
  - change (INR 2) with 2. rewrite <- p2_1. apply p2_le. lia.
Qed.
Lemma cx_within : within 3 2 cx.
Proof.
  split; [|intros j _; unfold cx; rewrite Rabs_right; lra]. split.
  - apply Rle_trans with (p2 1); [apply p2_le; lia|rewrite p2_1; lra].
  - apply Rle_trans with (p2 2); [unfold p2; simpl; lra|apply p2_le; lia].
Qed.
Lemma XF_reads n f : reads n (fun j => XF (f j)) f. Proof. intros j _. reflexivity. Qed.
Lemma p2_num a b : (0 <= a)%Z -> IZR (2 ^ a) * p2 (b - a) = p2 b.
Proof. intros A. rewrite <- p2_int by exact A. rewrite <- p2_add. f_equal. lia. Qed.

Notation A := 7205759403792794%Z (only parsing).
Notation B := 5404319552844596%Z (only parsing).
Notation b64 := binary64.
Lemma unit55 : 36028797018963968 * p2 (-55) = 1.
Proof. rewrite <- p2_0, <- (p2_num 55 0) by lia. reflexivity. Qed.
Lemma units : p2 (-51) = 16 * p2 (-55) /\ p2 (-52) = 8 * p2 (-55) /\ p2 (-53) = 4 * p2 (-55) /\ p2 (-154) = 8 * p2 (-157) /\ p2 (-155) = 4 * p2 (-157) /\
  p2 (-102) = 36028797018963968 * p2 (-157) /\ p2 (-205) = 8 * p2 (-208) /\ p2 (-206) = 4 * p2 (-208) /\ p2 (-153) = 36028797018963968 * p2 (-208).
Proof.
  repeat split; [rewrite <- (p2_num 4 (-51))|rewrite <- (p2_num 3 (-52))|rewrite <- (p2_num 2 (-53))|rewrite <- (p2_num 3 (-154))|
    rewrite <- (p2_num 2 (-155))|rewrite <- (p2_num 55 (-102))|rewrite <- (p2_num 3 (-205))|rewrite <- (p2_num 2 (-206))|rewrite <- (p2_num 55 (-153))]; try lia; reflexivity.
Qed.
Lemma total_54 : tsum b64 cw two = 5 / 4.
Proof.
  assert (U := unit55). destruct units as (_ & U52 & _). cbn [tsum two cw].
  rewrite (at_exact (-52) 5629499534213120) by (lia || lra). lra.
Qed.
Lemma sh_0 : sh b64 cw two 0 = IZR A * p2 (-55).
Proof. unfold sh. rewrite total_54. apply (at_up (-55) 7205759403792793 (6 / 10)); try lia; [lra|]. cbn [cw]. assert (U := unit55). lra. Qed.
Lemma sh_1 : sh b64 cw two 1 = IZR A * p2 (-53).
Proof. unfold sh. rewrite total_54. apply (at_up (-53) 7205759403792793 (6 / 10)); try lia; [lra|]. cbn [cw]. assert (U := unit55). destruct units as (_ & _ & U53 & _). lra. Qed.
Definition cmean : R := tsum b64 (fun j => b64 (sh b64 cw two j * cx j)) two.
Lemma cmean_eq : cmean = 3 + p2 (-51).
Proof.
  assert (U := unit55). destruct units as (U51 & U52 & U53 & _). unfold cmean. cbn [tsum two]. unfold cx. rewrite sh_0, sh_1.
  rewrite (at_tie (-53) 5404319552844595 (IZR A * p2 (-55) * 3)) by (lia || lra).
  rewrite (at_tie (-51) 5404319552844595 (IZR A * p2 (-53) * 3)) by (lia || lra). cbn [Z.even Z.add Pos.add Pos.succ Pos.add_carry].
  rewrite (at_exact (-51) 6755399441055745) by (lia || lra). lra.
Qed.
Definition cc (j : nat) : R := b64 (cx j - cmean).
Lemma cc_eq j : cc j = - p2 (-51).
Proof. unfold cc, cx. rewrite cmean_eq. replace (3 - (3 + p2 (-51))) with (- p2 (-51)) by ring. rewrite b64_opp, b64_p2 by lia. reflexivity. Qed.
Definition cy (j : nat) : R := b64 (cc j * cc j).
Lemma cy_eq j : cy j = p2 (-102).
Proof. unfold cy. rewrite cc_eq. replace (- p2 (-51) * - p2 (-51)) with (p2 (-51) * p2 (-51)) by ring. rewrite <- p2_add. apply b64_p2. lia. Qed.
Definition ct (j : nat) : R := b64 (cy j * cc j).
Lemma ct_eq j : ct j = - p2 (-153).
Proof. unfold ct. rewrite cy_eq, cc_eq. replace (p2 (-102) * - p2 (-51)) with (- (p2 (-102) * p2 (-51))) by ring. rewrite <- p2_add, b64_opp. change (-102 + -51)%Z with (-153)%Z. rewrite b64_p2 by lia. reflexivity. Qed.
Lemma weighted k : (-900 <= k <= 0)%Z ->
  b64 (b64 (IZR A * p2 (-55) * p2 k) + b64 (IZR A * p2 (-53) * p2 k)) = p2 k.
Proof.
  intros K. assert (U := unit55). destruct units as (U51 & U52 & U53 & _). 
  assert (V0 : p2 (k - 55) = p2 (-55) * p2 k) by (rewrite <- p2_add; f_equal; lia).
  assert (V1 : p2 (k - 53) = p2 (-53) * p2 k) by (rewrite <- p2_add; f_equal; lia).
  assert (V2 : p2 (k - 52) = p2 (-52) * p2 k) by (rewrite <- p2_add; f_equal; lia).
  assert (V3 : p2 k = 36028797018963968 * (p2 (-55) * p2 k)) by (rewrite <- Rmult_assoc, U; ring).
  rewrite U53 in V1. rewrite U52 in V2.
  rewrite (at_exact (k - 55) A (IZR A * p2 (-55) * p2 k)) by (lia || (rewrite V0; ring)).
  rewrite (at_exact (k - 53) A (IZR A * p2 (-53) * p2 k)) by (lia || (rewrite V1, U53; ring)).
  rewrite (at_down (k - 52) 4503599627370496 (1 / 4)); [|lia|lia|lra|rewrite U53, V2; ring_simplify; set (q := p2 (-55) * p2 k); lra].
  rewrite V2. rewrite V3 at 2. ring.
Qed.
Definition fcw (j : nat) : xd := XF (cw j).
Definition fcx (j : nat) : xd := XF (cx j).
Lemma val_mean : xval (r_mean b64 binary64_big two two fcw fcx) = Some (3 + p2 (-51)).
Proof.
  rewrite <- cmean_eq. apply (mean_val b64 binary64_big b64_rounding b64_faithful 2 cw cw_weights two two_adds cx 3 two fcw fcx cx_within two_adds); apply XF_reads.
Qed.
Lemma val_c j : (j < 2)%nat -> xval (rsub b64 binary64_big (fcx j) (r_mean b64 binary64_big two two fcw fcx)) = Some (cc j).
Proof.
  apply (c_val b64 binary64_big b64_rounding b64_faithful 2 cw cw_weights two two_adds cx 3 two fcw fcx cx_within two_adds); apply XF_reads.
Qed.
Lemma val_variance : xval (r_variance b64 binary64_big two two two fcw fcx) = Some (p2 (-102)).
Proof.
  rewrite (var_val b64 binary64_big b64_rounding b64_faithful 2 cw cw_weights two two_adds cx 3 two two fcw fcx cx_within two_adds two_adds) by apply XF_reads.
  f_equal. change (tsum b64 (fun j => b64 (sh b64 cw two j * cy j)) two = p2 (-102)). cbn [tsum two]. rewrite !cy_eq, sh_0, sh_1. apply weighted. lia.
Qed.
Lemma val_sd : xval (r_sd b64 binary64_big two two two fcw fcx) = Some (p2 (-51)).
Proof.
  assert (P := p2_pos (-51)). assert (S : sqrt (p2 (-102)) = p2 (-51)) by (change (-102)%Z with (-51 + -51)%Z; rewrite p2_add, sqrt_square; lra).
  unfold r_sd. rewrite <- (b64_p2 (-51)) by lia. rewrite <- S. apply (rd_val b64 binary64_big b64_rounding 1); [lia|apply xval_xsqrt; [exact val_variance|left; apply p2_pos]|].
  rewrite S. unfold bnd. rewrite Rabs_right by lra. apply p2_le. lia.
Qed.
Lemma val_skewness : xval (r_skewness b64 binary64_big two two two two fcw fcx) = Some (-1).
Proof.
  assert (B1 : bnd 0 (-1)) by (unfold bnd; rewrite Rabs_left by lra; rewrite p2_0; lra).
  assert (E1 : b64 (-1) = -1) by (replace (-1) with (- p2 0) by (rewrite p2_0; lra); rewrite b64_opp, b64_p2 by lia; reflexivity).
  assert (P := p2_pos (-153)).
  assert (Q : - p2 (-153) / p2 (-153) = -1) by (field; lra).
  unfold r_skewness. cbv zeta. rewrite <- E1, <- Q. apply (v_div b64 binary64_big b64_rounding 0); [lia| | |lra|rewrite Q; exact B1].
  - assert (T : tsum b64 (fun j => b64 (sh b64 cw two j * ct j)) two = - p2 (-153)).
    { cbn [tsum two]. rewrite !ct_eq, sh_0, sh_1. rewrite !Ropp_mult_distr_r_reverse, !b64_opp, <- Ropp_plus_distr, b64_opp. f_equal. apply weighted. lia. }
    rewrite <- T. apply (wsum_val b64 binary64_big b64_rounding b64_faithful 2 cw cw_weights two two_adds ct 1 two two_adds); [| |apply XF_reads|].
    + intros j _. rewrite ct_eq, Rabs_Ropp, Rabs_right by lra. rewrite <- p2_0. apply p2_le. lia.
    + rewrite <- p2_0. split; apply p2_le; lia.
    + intros j Hj. assert (P51 := p2_pos (-51)). assert (P102 := p2_pos (-102)). apply (v_mul b64 binary64_big b64_rounding 1); [lia| |apply val_c; exact Hj|].
      * apply (v_mul b64 binary64_big b64_rounding 1); [lia|apply val_c; exact Hj|apply val_c; exact Hj|].
        rewrite cc_eq. unfold bnd. rewrite Rmult_opp_opp, <- p2_add, Rabs_right by (left; apply p2_pos). apply p2_le. lia.
      * fold (cy j). rewrite cy_eq, cc_eq. unfold bnd. rewrite Ropp_mult_distr_r_reverse, <- p2_add, Rabs_Ropp, Rabs_right by (left; apply p2_pos). apply p2_le. lia.
  - assert (M : p2 (-102) * p2 (-51) = p2 (-153)) by (rewrite <- p2_add; reflexivity).
    rewrite <- (b64_p2 (-153)) by lia. rewrite <- M. apply (v_mul b64 binary64_big b64_rounding 1); [lia|exact val_variance|exact val_sd|].
    rewrite M. unfold bnd. rewrite Rabs_right by lra. apply p2_le. lia.
Qed.
Lemma constant_fails : exists w x t, kernel_weights 2 w /\ adds 2 t /\
  (forall j, (j < 2)%nat -> is_double (w j) /\ is_double (x j) /\ x j = 3) /\
  let fw := fun j => XF (w j) in let fx := fun j => XF (x j) in
  xval (r_mean binary64 binary64_big t t fw fx) = Some (3 + p2 (-51)) /\
  xval (r_variance binary64 binary64_big t t t fw fx) = Some (p2 (-102)) /\
  xval (r_sd binary64 binary64_big t t t fw fx) = Some (p2 (-51)) /\
  xval (r_skewness binary64 binary64_big t t t t fw fx) = Some (-1).
Proof.
  exists cw, cx, two. split; [exact cw_weights|]. split; [exact two_adds|]. split.
  - intros j _. split; [|split; [|reflexivity]].
    + unfold is_double. destruct j as [|j]; cbn [cw].
      * replace (/ 4) with (p2 (-2)) by (unfold p2; simpl; lra). apply b64_p2. lia.
      * rewrite <- p2_0. apply b64_p2. lia.
    + unfold is_double, cx. replace 3 with (INR 3) by (simpl; lra). apply b64_int. simpl. assert (p2 2 <= p2 53) by (apply p2_le; lia). unfold p2 at 1 in H. simpl in H. lra.
  - exact (conj val_mean (conj val_variance (conj val_sd val_skewness))).
Qed.
Lemma cx_moments : mean_of 2 cw cx = 3 /\ variance_of 2 cw cx = 0.
Proof.
  assert (M : mean_of 2 cw cx = 3) by (unfold mean_of; cbn [bigsum cw]; unfold cx; field). split; [exact M|].
  unfold variance_of. rewrite M. cbn [bigsum cw]. unfold cx. field.
Qed.
