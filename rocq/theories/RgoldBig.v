(** The golden-section search in binary64: bounds that are huge compared with their difference. *)
From Coq Require Import Reals ZArith Bool List Lra Lia Arith.
From Verif Require Import XReal XRealFacts KernelModel GoldModel GoldSpec GoldProofs GoldProofs2 RoundModel RoundSpec RoundProofs Binary64 RoundAcc RoundAcc2 RgwssProofs RgoldModel RgoldSpec RgoldProofs RgoldMain.
Import ListNotations.
Local Open Scope R_scope.

Definition blo : R := p2 60.
Definition bup : R := p2 60 + 256.
Definition bg (x : R) : R := bup - x.
Definition bcrit : criterion := fun _ w => Answer true (XF (bg (wvalue w))).
Lemma nearest_close x z : Rabs (x - IZR z) < / 2 -> nearest x = z.
Proof.
  intros H. pose proof (nearest_err x) as A. apply Rabs_def2 in H. apply Rabs_le_inv in A.
  assert (B : IZR (nearest x) < IZR (z + 1)) by (rewrite plus_IZR; lra). assert (C : IZR (z - 1) < IZR (nearest x)) by (rewrite minus_IZR; lra). apply lt_IZR in B, C. lia.
Qed.
Lemma p2_8 : p2 8 = 256.
Proof. unfold p2. simpl. lra. Qed.
Lemma p2_7 : p2 7 = 128.
Proof. unfold p2. simpl. lra. Qed.
Lemma at60 k j z y : (7 <= j <= 8)%Z -> exponent (p2 60 + y) = (j + 52)%Z -> 0 < p2 60 + y -> k = (2 ^ (60 - j) + z)%Z -> Rabs (y / p2 j - IZR z) < / 2 -> binary64 (p2 60 + y) = p2 60 + p2 j * IZR z.
Proof.
  intros J E PO K H. rewrite b64_pos by exact PO. assert (S : spacing (p2 60 + y) = p2 j) by (unfold spacing; rewrite E; f_equal; lia). rewrite S.
  pose proof (p2_pos j) as PJ. assert (Q : p2 60 = p2 j * IZR (2 ^ (60 - j))) by (rewrite <- p2_int by lia; rewrite <- p2_add; f_equal; lia).
  rewrite (nearest_close _ k); [rewrite K, plus_IZR, Rmult_plus_distr_l, <- Q; reflexivity|].
  rewrite K, plus_IZR. rewrite Q at 1. replace ((p2 j * IZR (2 ^ (60 - j)) + y) / p2 j - (IZR (2 ^ (60 - j)) + IZR z)) with (y / p2 j - IZR z) by (field; lra). exact H.
Qed.
Lemma p2_60 : p2 60 = 1152921504606846976.
Proof. rewrite p2_int by lia. reflexivity. Qed.
Lemma p2_59 : p2 59 = 576460752303423488.
Proof. rewrite p2_int by lia. reflexivity. Qed.
Lemma p2_61 : p2 61 = 2305843009213693952.
Proof. rewrite p2_int by lia. reflexivity. Qed.
Lemma above60 y : 0 <= y < 128 -> binary64 (p2 60 + y) = blo.
Proof.
  intros H. rewrite (at60 (2 ^ 52) 8 0 y); [unfold blo; ring|lia| | |reflexivity|].
  - apply exponent_unique. change (8 + 52)%Z with 60%Z. change (60 + 1)%Z with 61%Z. rewrite p2_60, p2_61. lra.
  - rewrite p2_60. lra.
  - rewrite p2_8. apply Rabs_def1; lra.
Qed.
Lemma upper60 y : 128 < y < 384 -> binary64 (p2 60 + y) = bup.
Proof.
  intros H. rewrite (at60 (2 ^ 52 + 1) 8 1 y); [unfold bup; rewrite p2_8; ring|lia| | |reflexivity|].
  - apply exponent_unique. change (8 + 52)%Z with 60%Z. change (60 + 1)%Z with 61%Z. rewrite p2_60, p2_61. lra.
  - rewrite p2_60. lra.
  - rewrite p2_8. apply Rabs_def1; lra.
Qed.
Lemma below60 y : 0 < y < 64 -> binary64 (p2 60 - y) = blo.
Proof.
  intros H. unfold Rminus. rewrite (at60 (2 ^ 53) 7 0 (- y)); [unfold blo; ring|lia| | |reflexivity|].
  - apply exponent_unique. change (7 + 52)%Z with 59%Z. change (59 + 1)%Z with 60%Z. rewrite p2_60, p2_59. lra.
  - rewrite p2_60. lra.
  - rewrite p2_7. apply Rabs_def1; lra.
Qed.
Notation rn := binary64.
Notation rg := (r_golden rn).
Lemma shrunk d W : 0 <= W <= 200 -> Rabs (d - W) <= 1 / 10 -> Rabs (rn (rg * d) - 0.618 * W) <= 1 / 10.
Proof.
  intros H A. pose proof (rg_range rn binary64_big b64_rounding b64_faithful) as RG. apply Rabs_le_inv in A.
  assert (X : 0.618 * W - 0.07 <= rg * d <= 0.618 * W + 0.07) by (split; nra).
  assert (Y : Rabs (rg * d) <= p2 25) by (rewrite p2_25; apply Rabs_le; lra). pose proof (rn_abs rn binary64_big b64_rounding b64_faithful _ Y) as B. apply Rabs_le_inv in B.
  pose proof eta_u as EU. rewrite u_val in *. apply Rabs_le. lra.
Qed.
Lemma bwidth : Rabs (r_width rn blo bup - 158.208) <= 1 / 10.
Proof.
  unfold r_width. replace (bup - blo) with 256 by (unfold bup, blo; ring). replace (rn 256) with 256 by (rewrite <- p2_8; symmetry; apply b64_p2; lia).
  pose proof (rg_range rn binary64_big b64_rounding b64_faithful) as RG. assert (X : 158.208 <= rg * 256 <= 158.22) by lra.
  assert (Y : Rabs (rg * 256) <= p2 25) by (rewrite p2_25; apply Rabs_le; lra). pose proof (rn_abs rn binary64_big b64_rounding b64_faithful _ Y) as B. apply Rabs_le_inv in B.
  pose proof eta_u as EU. rewrite u_val in *. apply Rabs_le. lra.
Qed.
Definition bw : weight := mkWeight Gaussian false 0.
Lemma bfirst : wvalue (r_first rn bw blo bup) = bup.
Proof. unfold r_first, bw. cbn [wvalue wadaptive]. pose proof bwidth as B. apply Rabs_le_inv in B. apply upper60. lra. Qed.
Lemma bsecond : wvalue (r_second rn bw blo bup) = blo.
Proof.
  unfold r_second, bw. cbn [wvalue wadaptive]. pose proof bwidth as B. apply Rabs_le_inv in B.
  replace (bup - r_width rn blo bup) with (p2 60 + (256 - r_width rn blo bup)) by (unfold bup; ring). apply above60. lra.
Qed.
Lemma Rltb_t a b : a < b -> Rltb a b = true.
Proof. apply Rltb_true. Qed.
Lemma bsub a b : (a = 0 /\ b = 256) \/ (a = 256 /\ b = 0) -> xltb (XF (r_eps rn)) (xabs (rsub rn binary64_big (XF b) (XF a))) = true.
Proof.
  intros H. pose proof (reps_range rn binary64_big b64_rounding b64_faithful) as RR.
  assert (B : Rleb binary64_big 256 = false).
  { destruct (Rleb binary64_big 256) eqn:E; [|reflexivity]. apply Rleb_true in E. assert (C := big_p2 _ _ b64_rounding). assert (D : p2 8 < p2 1000) by (apply p2_lt; lia). rewrite p2_8 in D. lra. }
  assert (R1 : rn 256 = 256) by (rewrite <- p2_8; apply b64_p2; lia). assert (R2 : rn (- (256)) = - (256)) by (rewrite b64_opp, R1; reflexivity).
  assert (Z0 : Reqb 256 0 = false) by (destruct (Reqb 256 0) eqn:Z; [apply Reqb_true in Z; lra|reflexivity]).
  assert (Z1 : Reqb (-(256)) 0 = false) by (destruct (Reqb (-(256)) 0) eqn:Z; [apply Reqb_true in Z; lra|reflexivity]).
  assert (Z2 : Reqb 0 0 = true) by (apply Reqb_true; reflexivity).
  unfold rsub, xsub. destruct H as [[-> ->]|[-> ->]]; cbn [xopp].
  - rewrite Z2. cbn [xadd]. unfold rd. rewrite (Rabs_right 256) by lra. rewrite B. unfold xfin. rewrite R1, Z0. cbn [xabs xltb]. rewrite (Rabs_right 256) by lra. apply Rltb_true. lra.
  - rewrite Z0. cbn [xadd]. unfold rd. replace (0 + - (256)) with (- (256)) by ring. rewrite Rabs_Ropp, (Rabs_right 256) by lra. rewrite B. unfold xfin. rewrite R2, Z1. cbn [xabs xltb].
    rewrite Rabs_Ropp, (Rabs_right 256) by lra. apply Rltb_true. lra.
Qed.
Lemma bwp : Rabs (r_width rn blo bup) = r_width rn blo bup /\ r_eps rn < r_width rn blo bup.
Proof. pose proof bwidth as B. apply Rabs_le_inv in B. pose proof (reps_range rn binary64_big b64_rounding b64_faithful). split; [apply Rabs_right|]; lra. Qed.
Lemma lost_main : exists crit w lo up g m st, rn lo = lo /\ rn up = up /\ lo < up /\ wadaptive w = false /\ unimodal g lo up m /\ answers crit g /\
  wvalue (r_first rn w lo up) = up /\ wvalue (r_second rn w lo up) = lo /\ r_reaches rn binary64_big crit w lo up [] st /\ xU st < m.
Proof.
  set (d0 := r_width rn blo bup). pose proof bwidth as B. fold d0 in B. destruct bwp as [BP BE]. fold d0 in BP, BE. pose proof (reps_range rn binary64_big b64_rounding b64_faithful) as RR.
  set (d1 := rn (rg * d0)). assert (D1 : Rabs (d1 - 0.618 * 158.208) <= 1 / 10) by (apply shrunk; [lra|exact B]).
  set (d2 := rn (rg * d1)). assert (D2 : Rabs (d2 - 0.618 * (0.618 * 158.208)) <= 1 / 10) by (apply shrunk; [lra|exact D1]).
  apply Rabs_le_inv in B, D1, D2.
  assert (G0 : bg bup = 0) by (unfold bg; ring). assert (G1 : bg blo = 256) by (unfold bg, bup, blo; ring).
  set (w1 := r_first rn bw blo bup). set (w2 := r_second rn bw blo bup).
  set (st0 := r_init rn bw blo bup [] (XF (bg (wvalue w1))) (XF (bg (wvalue w2)))).
  set (wl := mkWeight Gaussian false blo).
  set (st1 := mkVars blo bup d1 blo bup (XF 256) (XF 0) true true 1 bup (record blo (XF 256) (cmap st0)) 3 ((wl, XF 256) :: elog st0)).
  set (st2 := mkVars blo blo d2 bup blo (XF 0) (XF 256) true true 2 bup (record blo (XF 256) (cmap st1)) 4 ((wl, XF 256) :: elog st1)).
  assert (L0 : xltb (XF 0) (XF 256) = true) by (cbn [xltb]; apply Rltb_true; lra).
  assert (L1 : xltb (XF 256) (XF 0) = false) by (cbn [xltb]; apply Rltb_false; lra).
  assert (T0 : r_guard rn binary64_big st0 = true).
  { unfold r_guard, st0, r_init. cbn [s1 s2 dd f1 f2 iter andb]. fold d0. rewrite BP, (Rltb_t _ _ BE). cbn [andb]. unfold w1, w2. rewrite bfirst, bsecond, G0, G1. rewrite bsub by auto. reflexivity. }
  assert (S0 : r_step rn bcrit bw st0 = Some st1).
  { unfold r_step, st0, r_init. cbn [dd f1 f2 x1 x2 xL xU s1 s2 iter calls elog cmap]. fold d0 d1 w1 w2. unfold w1, w2. rewrite bfirst, bsecond, G0, G1, L0. cbn [wadaptive bw].
    replace (rn (blo + d1)) with blo by (symmetry; apply above60; lra). unfold bcrit. cbn [wvalue wkernel]. rewrite G1. unfold better. rewrite L1.
    unfold st1, st0, r_init. fold w1 w2. cbn [cmap elog]. fold d0. unfold w1, w2. rewrite bfirst, bsecond, G0, G1. reflexivity. }
  assert (T1 : r_guard rn binary64_big st1 = true).
  { unfold r_guard, st1. cbn [s1 s2 dd f1 f2 iter andb]. rewrite (Rabs_right d1) by lra. rewrite (Rltb_t _ d1) by lra. cbn [andb]. rewrite bsub by auto. reflexivity. }
  assert (S1 : r_step rn bcrit bw st1 = Some st2).
  { unfold r_step. change (f1 st1) with (XF 256). change (f2 st1) with (XF 0). rewrite L1. change (dd st1) with d1. fold d2. change (x1 st1) with blo. cbn [wadaptive bw].
    replace (rn (blo - d2)) with blo by (symmetry; apply below60; lra). unfold bcrit. cbn [wvalue wkernel bw]. rewrite G1. unfold better. rewrite L0. reflexivity. }
  exists bcrit, bw, blo, bup, bg, bup, st2.
  split; [apply b64_p2; lia|]. split; [apply upper60; lra|]. split; [unfold blo, bup; lra|]. split; [reflexivity|].
  split; [unfold unimodal, bg; split; [unfold blo, bup; lra|]; split; intros; lra|]. split; [intros k w; reflexivity|].
  split; [exact bfirst|]. split; [exact bsecond|]. split.
  - exists (XF (bg (wvalue w1))), (XF (bg (wvalue w2))). split; [reflexivity|]. split; [reflexivity|].
    eapply rp_next; [exact T0|exact S0|]. eapply rp_next; [exact T1|exact S1|]. apply rp_here.
  - change (xU st2) with blo. unfold blo, bup. lra.
Qed.
Lemma narrow_case : range24 0 (p2 (-20)) /\ p2 (-900) <= p2 (-20) - 0 < / 10000 /\ rn 0 = 0 /\ rn (p2 (-20)) = p2 (-20).
Proof.
  assert (A : p2 (-20) = / 1048576). { change (-20)%Z with (0 - 20)%Z. rewrite p2_sub, p2_0. replace (p2 20) with 1048576 by (unfold p2; simpl; lra). lra. }
  assert (B : p2 (-900) <= p2 (-20)) by (apply p2_le; lia). split; [unfold range24; rewrite p2_24, A; lra|]. split; [rewrite A in *; lra|]. split; [apply b64_zero|apply b64_p2; lia].
Qed.
