(** Asymmetry of the rounded normal equations, and residual sums of squares of exact and of tiny residuals, in binary64. *)
From Coq Require Import Reals Bool List ZArith Lra Lia Permutation.
From Verif Require Import Outcome XReal XRealFacts KernelProofs Sums RoundModel RoundSpec RoundProofs RoundAcc Binary64 RdistSpec RdistProofs RdistCases RoundAcc2 RgwssModel RgwssSpec RgwssProofs RgwssMain RgwssCases RnormModel RnormSpec RnormProofs RnormMain.
Import ListNotations.
Local Open Scope R_scope.
Notation b64 := binary64.

Lemma asymmetry_main rn big : rounding rn big -> faithful rn -> forall n w a b fw fa fb t t',
  unit_weights n w -> moderate_column n a -> moderate_column n b -> reads n fw w -> reads n fa a -> reads n fb b -> adds n t -> adds n t' ->
  exists u v, xval (r_cross rn big t fw fa fb) = Some u /\ xval (r_cross rn big t' fw fb fa) = Some v /\
  Rabs (u - v) <= INR n * (p2 (-48) * size_of n w a b + p2 (-589)).
Proof.
  intros RN FA n w a b fw fa fb t t' UW MA MB FW Fa Fb T T'.
  destruct (cross_main rn big RN FA n w a b fw fa fb t UW MA MB FW Fa Fb T) as [(u & U & EU) _].
  destruct (cross_main rn big RN FA n w b a fw fb fa t' UW MB MA FW Fb Fa T') as [(v & V & EV) _].
  assert (C : cross_of n w b a = cross_of n w a b) by (apply bs_ext; intros j _; ring).
  assert (S : size_of n w b a = size_of n w a b) by (apply bs_ext; intros j _; f_equal; ring). rewrite C, S in EV.
  exists u, v. split; [exact U|]. split; [exact V|]. assert (X := Rabs_add3 u (cross_of n w a b) v). rewrite (Rabs_minus_sym (cross_of n w a b) v) in X.
  replace (p2 (-48)) with (2 * p2 (-49)) by (replace 2 with (p2 1) by (unfold p2; simpl; lra); rewrite <- p2_add; reflexivity).
  replace (p2 (-589)) with (2 * p2 (-590)) by (replace 2 with (p2 1) by (unfold p2; simpl; lra); rewrite <- p2_add; reflexivity). lra.
Qed.

Definition dw (_ : nat) : R := 1 - p2 (-53).
Definition da (_ : nat) : R := 3.
Definition db (_ : nat) : R := 5.
Definition one : order := Leaf 0.
Lemma one_adds : adds 1 one. Proof. apply Permutation_refl. Qed.
Lemma p53 : 0 < p2 (-53) <= / 4. Proof. split; [apply p2_pos|]. apply Rle_trans with (p2 (-2)); [apply p2_le; lia|right; unfold p2; simpl; lra]. Qed.
Lemma le_400 c : Rabs c <= 8 -> Rabs c <= p2 400.
Proof. intros H. apply Rle_trans with (p2 3); [replace (p2 3) with 8 by (unfold p2; simpl; lra); exact H|apply p2_le; lia]. Qed.
Lemma n_small n : (n <= 8)%nat -> INR n <= p2 40.
Proof. intros H. apply Rle_trans with (p2 3); [replace (p2 3) with (INR 8) by (unfold p2; simpl; lra); apply le_INR, H|apply p2_le; lia]. Qed.
Lemma dw_unit : unit_weights 1 dw. Proof. split; [intros j _; unfold dw; assert (X := p53); lra|apply n_small; lia]. Qed.
Lemma da_mod : moderate_column 1 da. Proof. intros j _. apply le_400. unfold da. rewrite Rabs_right; lra. Qed.
Lemma db_mod : moderate_column 1 db. Proof. intros j _. apply le_400. unfold db. rewrite Rabs_right; lra. Qed.
Lemma unit53 : 9007199254740992 * p2 (-53) = 1. Proof. rewrite <- p2_0, <- (p2_num 53 0) by lia. reflexivity. Qed.
Lemma u51 : p2 (-51) = 4 * p2 (-53). Proof. rewrite <- (p2_num 2 (-51)) by lia. reflexivity. Qed.
Lemma u50 : p2 (-50) = 8 * p2 (-53). Proof. rewrite <- (p2_num 3 (-50)) by lia. reflexivity. Qed.
Lemma u49 : p2 (-49) = 16 * p2 (-53). Proof. rewrite <- (p2_num 4 (-49)) by lia. reflexivity. Qed.
Lemma u48 : p2 (-48) = 32 * p2 (-53). Proof. rewrite <- (p2_num 5 (-48)) by lia. reflexivity. Qed.
Lemma q_35 : q1 b64 dw da db 0 = 15 - p2 (-49).
Proof.
  assert (U := unit53). unfold q1, dw, da, db. rewrite (at_down (-51) 6755399441055743 (1 / 4) (3 * (1 - p2 (-53)))); [|lia|lia|lra|rewrite u51; lra].
  rewrite (at_up (-49) 8444249301319678 (3 / 4)); [|lia|lia|lra|rewrite u51, u49; lra]. cbn [Z.add Pos.add Pos.succ]. rewrite u49. lra.
Qed.
Lemma q_53 : q1 b64 dw db da 0 = 15 - p2 (-48).
Proof.
  assert (U := unit53). unfold q1, dw, da, db. rewrite (at_down (-50) 5629499534213119 (3 / 8) (5 * (1 - p2 (-53)))); [|lia|lia|lra|rewrite u50; lra].
  rewrite (at_tie (-49) 8444249301319678); [|lia|lia|rewrite u50, u49; lra]. cbn [Z.even]. rewrite u49, u48. lra.
Qed.
Lemma b64_3 : b64 3 = 3. Proof. replace 3 with (INR 3) by (simpl; lra). apply b64_int. apply Rle_trans with (p2 40); [apply n_small; lia|apply p2_le; lia]. Qed.
Lemma b64_5 : b64 5 = 5. Proof. replace 5 with (INR 5) by (simpl; lra). apply b64_int. apply Rle_trans with (p2 40); [apply n_small; lia|apply p2_le; lia]. Qed.
Lemma symmetric_fails : exists w a b, unit_weights 1 w /\ is_double (w 0%nat) /\ is_double (a 0%nat) /\ is_double (b 0%nat) /\
  let fw := fun j => XF (w j) in let fa := fun j => XF (a j) in let fb := fun j => XF (b j) in
  xval (r_cross b64 binary64_big (Leaf 0) fw fa fb) = Some (15 - p2 (-49)) /\
  xval (r_cross b64 binary64_big (Leaf 0) fw fb fa) = Some (15 - p2 (-48)).
Proof.
  exists dw, da, db. split; [exact dw_unit|]. split; [exact b64_pred1|]. split; [exact b64_3|]. split; [exact b64_5|]. cbv zeta. split.
  - rewrite <- q_35. apply (cross_val b64 binary64_big b64_rounding b64_faithful 1 dw da db one dw_unit da_mod db_mod one_adds); apply XF_reads.
  - rewrite <- q_53. apply (cross_val b64 binary64_big b64_rounding b64_faithful 1 dw db da one dw_unit db_mod da_mod one_adds); apply XF_reads.
Qed.

(** One row, three coefficients, whose exact sum is the dependent variable. *)
Definition gb (_ c : nat) : R := match c with O => 1 | _ => p2 (-53) end.
Definition gx (_ _ : nat) : R := 1.
Definition gy (_ : nat) : R := 1 + p2 (-52).
Definition row3 : order := Node (Node (Leaf 0) (Leaf 1)) (Leaf 2).
Lemma row3_adds : adds 3 row3. Proof. apply Permutation_refl. Qed.
Lemma M_ok c : 1 <= c <= 8 -> p2 (-400) <= c <= p2 400.
Proof.
  intros H. split; [apply Rle_trans with (p2 0); [apply p2_le; lia|rewrite p2_0; lra]|].
  apply Rle_trans with (p2 3); [replace (p2 3) with 8 by (unfold p2; simpl; lra); lra|apply p2_le; lia].
Qed.
Lemma u52 : p2 (-52) = 2 * p2 (-53). Proof. rewrite <- (p2_num 1 (-52)) by lia. reflexivity. Qed.
Lemma g_within : terms_within 2 1 3 gb gx gy.
Proof.
  assert (P := p53). split; [apply M_ok; lra|]. intros j _. unfold gy. rewrite u52. split; [rewrite Rabs_right; lra|].
  intros [|c] _; cbn [gb]; unfold gx; rewrite Rabs_right; lra.
Qed.
Lemma g_rss : rss_of 1 3 gb gx gy = 0.
Proof. unfold rss_of, residual_of, gy. cbn [bigsum gb]. unfold gx. rewrite u52. ring. Qed.
Lemma half_lost : b64 (1 + p2 (-53)) = 1.
Proof.
  replace (1 + p2 (-53)) with (1 + (IZR 0 + 1 / 2) * RdistCases.u) by (unfold RdistCases.u; rewrite u52; lra). rewrite b64_tie by lia. cbn [Z.even]. ring.
Qed.
Lemma g_sum : tsum b64 (sq b64 gb gx gy row3) one = p2 (-104).
Proof.
  cbn [tsum one]. unfold sq, res', fit'. cbn [tsum row3]. unfold ps, p, gy. cbn [gb]. unfold gx. rewrite !Rmult_1_r, b64_one, (b64_p2 (-53)) by lia. rewrite !half_lost.
  replace (1 + p2 (-52) - 1) with (p2 (-52)) by ring. rewrite b64_p2 by lia. rewrite <- p2_add. apply b64_p2. lia.
Qed.
Lemma XF_reads2 n k (f : nat -> nat -> R) : reads2 n k (fun j c => XF (f j c)) f. Proof. intros j c _ _. reflexivity. Qed.
Lemma perfect_fails : exists beta x y tc, terms_within 2 1 3 beta x y /\ adds 3 tc /\ is_double (y 0%nat) /\
  (forall c, (c < 3)%nat -> is_double (beta 0%nat c) /\ is_double (x 0%nat c)) /\
  rss_of 1 3 beta x y = 0 /\
  xval (r_rss b64 binary64_big tc (Leaf 0) (fun j c => XF (beta j c)) (fun j c => XF (x j c)) (fun j => XF (y j))) = Some (p2 (-104)).
Proof.
  exists gb, gx, gy, row3. split; [exact g_within|]. split; [exact row3_adds|]. split; [apply b64_above1; lia|]. split.
  { intros [|c] _; (split; [|exact b64_one]); cbn [gb]; [exact b64_one|apply b64_p2; lia]. }
  split; [exact g_rss|]. rewrite <- g_sum.
  apply (rss_val b64 binary64_big b64_rounding b64_faithful 1 3 gb gx gy 2 row3 one g_within); [apply n_small; lia|apply n_small; lia|exact row3_adds|exact one_adds|apply XF_reads2|apply XF_reads2|apply XF_reads].
Qed.

(** A residual whose square underflows. *)
Definition zb (_ _ : nat) : R := 0.
Definition zy (_ : nat) : R := p2 (-600).
Lemma p600 : 0 < p2 (-600) <= 1. Proof. split; [apply p2_pos|]. rewrite <- p2_0. apply p2_le. lia. Qed.
Lemma z_within : terms_within 1 1 1 zb gx zy.
Proof.
  assert (P := p600). split; [apply M_ok; lra|]. intros j _. unfold zy. split; [rewrite Rabs_right; lra|].
  intros c _. unfold zb, gx. rewrite Rmult_0_l, Rabs_R0. lra.
Qed.
Lemma under : b64 (p2 (-1200)) = 0.
Proof.
  assert (P := p2_pos (-1200)). rewrite b64_pos by exact P.
  assert (E : exponent (p2 (-1200)) = (-1200)%Z) by (apply exponent_unique; split; [lra|apply p2_lt; lia]).
  assert (S : spacing (p2 (-1200)) = p2 (-1074)) by (unfold spacing; rewrite E; reflexivity). rewrite S.
  assert (D : p2 (-1200) / p2 (-1074) = p2 (-126)).
  { apply Rmult_eq_reg_r with (p2 (-1074)); [|apply Rgt_not_eq, p2_pos]. unfold Rdiv. rewrite Rmult_assoc, Rinv_l, Rmult_1_r by (apply Rgt_not_eq, p2_pos). rewrite <- p2_add. reflexivity. }
  rewrite D. assert (X : 0 < p2 (-126) <= / 4) by (split; [apply p2_pos|apply Rle_trans with (p2 (-2)); [apply p2_le; lia|right; unfold p2; simpl; lra]]).
  unfold nearest. rewrite (Int_part_unique _ 0) by lra. cbv zeta. rewrite (proj2 (Rltb_true (p2 (-126) - 0) (1 / 2))) by lra. ring.
Qed.
Lemma z_sum : tsum b64 (sq b64 zb gx zy one) one = 0.
Proof.
  cbn [tsum one]. unfold sq, res', fit'. cbn [tsum one]. unfold ps, p, zy, zb, gx. rewrite Rmult_0_l, b64_zero, Rminus_0_r, b64_p2 by lia. rewrite <- p2_add. exact under.
Qed.
Lemma zero_fails : exists beta x y, terms_within 1 1 1 beta x y /\ is_double (beta 0%nat 0%nat) /\ is_double (x 0%nat 0%nat) /\ is_double (y 0%nat) /\
  rss_of 1 1 beta x y > 0 /\
  xval (r_rss b64 binary64_big (Leaf 0) (Leaf 0) (fun j c => XF (beta j c)) (fun j c => XF (x j c)) (fun j => XF (y j))) = Some 0.
Proof.
  exists zb, gx, zy. split; [exact z_within|]. split; [exact b64_zero|]. split; [exact b64_one|]. split; [apply b64_p2; lia|]. split.
  - unfold rss_of, residual_of, zb, gx, zy. cbn [bigsum]. assert (P := p600). nra.
  - rewrite <- z_sum. apply (rss_val b64 binary64_big b64_rounding b64_faithful 1 1 zb gx zy 1 one one z_within); [apply n_small; lia|apply n_small; lia|exact one_adds|exact one_adds|apply XF_reads2|apply XF_reads2|apply XF_reads].
Qed.

(** Two rows for the examples. *)
Definition ea (j : nat) : R := match j with O => 2 | _ => -3 end.
Lemma ea_mod : moderate_column 2 ea. Proof. intros [|j] _; apply le_400; cbn [ea]; unfold Rabs; destruct Rcase_abs; lra. Qed.
Lemma cw_unit : unit_weights 2 cw. Proof. split; [intros [|j] _; cbn [cw]; lra|apply n_small; lia]. Qed.
Lemma cx_mod : moderate_column 2 cx. Proof. intros j _. apply le_400. unfold cx. rewrite Rabs_right; lra. Qed.
Lemma ea_cross : cross_of 2 cw ea cx = - (15 / 2). Proof. unfold cross_of. cbn [bigsum cw ea]. unfold cx. lra. Qed.
Lemma cw_row : exists j, (j < 2)%nat /\ p2 (-400) <= cw j /\ p2 (-200) <= Rabs (ea j).
Proof.
  exists 1%nat. split; [lia|]. cbn [cw ea]. split; [rewrite <- p2_0; apply p2_le; lia|].
  apply Rle_trans with (p2 0); [apply p2_le; lia|rewrite p2_0]. unfold Rabs; destruct Rcase_abs; lra.
Qed.
Definition hb (j c : nat) : R := match c with O => 1 | _ => INR j end.
Definition hy (j : nat) : R := match j with O => 3 | _ => 1 end.
Lemma h_within : terms_within 3 2 2 hb gx hy.
Proof.
  split; [apply M_ok; lra|]. intros j J. split; [destruct j; cbn [hy]; rewrite Rabs_right; lra|].
  intros [|c] _; cbn [hb]; unfold gx; rewrite Rmult_1_r; [rewrite Rabs_right; lra|]. assert (0 <= INR j) by apply pos_INR. assert (INR j <= INR 1) by (apply le_INR; lia). change (INR 1) with 1 in *. rewrite Rabs_right; lra.
Qed.
Lemma h_rss : rss_of 2 2 hb gx hy = 5.
Proof. unfold rss_of, residual_of. cbn [bigsum hb hy]. unfold gx. cbn [INR]. lra. Qed.
