(** Overflow and underflow of the kernels in binary64. *)
From Coq Require Import Reals Bool List ZArith Lra Lia.
From Verif Require Import Outcome XReal XRealFacts KernelModel KernelSpec KernelProofs RoundModel RoundSpec RoundProofs RoundMain Binary64.
Import ListNotations.
Local Open Scope R_scope.

Notation rn := binary64.
Notation big := binary64_big.

(** A correctly rounded exp. *)
Definition exp64 (x : R) : R := binary64 (exp x).
Lemma exp64_ok : exponential exp64.
Proof.
  constructor.
  - intros x y L. apply b64_mono. apply exp_le. exact L.
  - unfold exp64. rewrite exp_0, <- p2_0. apply b64_p2. lia.
  - intros x. apply b64_nonneg. left. apply exp_pos.
Qed.

Lemma big_le : big <= p2 1024.
Proof. unfold binary64_big. assert (P := p2_pos 970). lra. Qed.
(** At least 2^k, or infinite. *)
Definition xge (k : Z) (x : xd) : Prop := x = XI false \/ exists r, x = XF r /\ p2 k <= r.
Definition xle (k : Z) (x : xd) : Prop := x = XI true \/ exists r, x = XF r /\ r <= - p2 k.

Lemma rd_ge k r : (-1000 <= k <= 1000)%Z -> p2 k <= r -> xge k (rd rn big (XF r)).
Proof.
  intros K L. assert (P := p2_pos k). cbn [rd]. rewrite (proj2 (Rltb_false r 0)) by lra. destruct (Rleb big (Rabs r)); [left; reflexivity|right].
  assert (G := ge rn big b64_rounding k r K L). exists (rn r). split; auto. unfold xfin. rewrite (proj2 (Reqb_false _ 0)) by lra. reflexivity.
Qed.
Lemma rd_le k r : (-1000 <= k <= 1000)%Z -> r <= - p2 k -> xle k (rd rn big (XF r)).
Proof.
  intros K L. assert (P := p2_pos k). cbn [rd]. rewrite (proj2 (Rltb_true r 0)) by lra. destruct (Rleb big (Rabs r)); [left; reflexivity|right].
  assert (G := ge rn big b64_rounding k (- r) K ltac:(lra)). rewrite b64_opp in G. exists (rn r). split; [|lra]. unfold xfin. rewrite (proj2 (Reqb_false _ 0)) by lra. reflexivity.
Qed.
Lemma rd_over r : p2 1024 <= r -> rd rn big (XF r) = XI false.
Proof.
  intros L. assert (P := p2_pos 1024). assert (B := big_le). cbn [rd]. rewrite (proj2 (Rleb_true _ _)); [|rewrite Rabs_right; lra].
  rewrite (proj2 (Rltb_false r 0)) by lra. reflexivity.
Qed.
Lemma rd_nover r : r <= - p2 1024 -> rd rn big (XF r) = XI true.
Proof.
  intros L. assert (P := p2_pos 1024). assert (B := big_le). cbn [rd]. rewrite (proj2 (Rleb_true _ _)); [|rewrite Rabs_left; lra].
  rewrite (proj2 (Rltb_true r 0)) by lra. reflexivity.
Qed.
Lemma xmul_pos a b : 0 < a -> 0 < b -> xmul (XF a) (XF b) = XF (a * b).
Proof. intros A B. cbn. unfold xfin. rewrite (proj2 (Reqb_false (a * b) 0)); [reflexivity|]. nra. Qed.
Lemma xmul_negs a b : a < 0 -> b < 0 -> xmul (XF a) (XF b) = XF (a * b).
Proof. intros A B. cbn. unfold xfin. rewrite (proj2 (Reqb_false (a * b) 0)); [reflexivity|]. nra. Qed.
Lemma xmul_mixed a b : 0 < a -> b < 0 -> xmul (XF a) (XF b) = XF (a * b).
Proof. intros A B. cbn. unfold xfin. rewrite (proj2 (Reqb_false (a * b) 0)); [reflexivity|]. nra. Qed.
Lemma xmul_inf s x : (xmul (XI s) x = match x with XN => XN | XI t => XI (xorb s t) | _ => match xval x with Some b => if Reqb b 0 then XN else XI (xorb s (xsign x)) | None => XN end end).
Proof. destruct x; reflexivity. Qed.

Lemma mul_ge i j x y : xge i x -> xge j y -> (-1000 <= i + j <= 1000)%Z -> xge (i + j) (rmul rn big x y).
Proof.
  intros [->|(a & -> & A)] [->|(b & -> & B)] K; assert (P := p2_pos i); assert (Q := p2_pos j); unfold rmul.
  - left; reflexivity.
  - left. cbn. rewrite (proj2 (Reqb_false b 0)), (proj2 (Rltb_false b 0)) by lra. reflexivity.
  - left. cbn. rewrite (proj2 (Reqb_false a 0)), (proj2 (Rltb_false a 0)) by lra. reflexivity.
  - rewrite xmul_pos by lra. apply rd_ge; auto. rewrite p2_add. nra.
Qed.
Lemma mul_le i x y : xle i x -> xle i y -> (-1000 <= i + i <= 1000)%Z -> xge (i + i) (rmul rn big x y).
Proof.
  intros [->|(a & -> & A)] [->|(b & -> & B)] K; assert (P := p2_pos i); unfold rmul.
  - left; reflexivity.
  - left. cbn. rewrite (proj2 (Reqb_false b 0)), (proj2 (Rltb_true b 0)) by lra. reflexivity.
  - left. cbn. rewrite (proj2 (Reqb_false a 0)), (proj2 (Rltb_true a 0)) by lra. reflexivity.
  - rewrite xmul_negs by lra. apply rd_ge; auto. rewrite p2_add. nra.
Qed.
Lemma mul_over i j x y : xge i x -> xle j y -> (1024 <= i + j)%Z -> rmul rn big x y = XI true.
Proof.
  intros [->|(a & -> & A)] [->|(b & -> & B)] K; assert (P := p2_pos i); assert (Q := p2_pos j); unfold rmul.
  - reflexivity.
  - cbn. rewrite (proj2 (Reqb_false b 0)), (proj2 (Rltb_true b 0)) by lra. reflexivity.
  - cbn. rewrite (proj2 (Reqb_false a 0)), (proj2 (Rltb_false a 0)) by lra. reflexivity.
  - rewrite xmul_mixed by lra. apply rd_nover. assert (p2 1024 <= p2 (i + j)) by (apply p2_le; lia). rewrite p2_add in H. nra.
Qed.
Lemma sq_over i x : xge i x -> (1024 <= i + i)%Z -> rmul rn big x x = XI false.
Proof.
  intros [->|(a & -> & A)] K; assert (P := p2_pos i); unfold rmul.
  - reflexivity.
  - rewrite xmul_pos by lra. apply rd_over. assert (p2 1024 <= p2 (i + i)) by (apply p2_le; lia). rewrite p2_add in H. nra.
Qed.
Lemma one_minus k x : xge (k + 1) x -> (0 <= k <= 1000)%Z -> xle k (rsub rn big (XF 1) x).
Proof.
  intros [->|(a & -> & A)] K; unfold rsub.
  - left. reflexivity.
  - rewrite p2_add, p2_1 in A. assert (p2 0 <= p2 k) by (apply p2_le; lia). rewrite p2_0 in H. unfold xsub. cbn [xopp]. rewrite (proj2 (Reqb_false a 0)) by lra. cbn [xadd]. apply rd_le; [lia|lra].
Qed.

Lemma tricube_nan d : p2 115 <= d -> r_tricube rn big (XF d) (XF 1) = XN.
Proof.
  intros D. assert (P1 : p2 0 < p2 115) by (apply p2_lt; lia). rewrite p2_0 in P1. unfold r_tricube. cbv zeta.
  assert (X : xge 115 (XF d)) by (right; eauto). assert (D2 := mul_ge 115 115 _ _ X X ltac:(lia)). assert (D3 := mul_ge (115 + 115) 115 _ _ D2 X ltac:(lia)).
  set (d3 := rmul rn big (rmul rn big (XF d) (XF d)) (XF d)) in *.
  assert (ONE : rmul rn big (rmul rn big (XF 1) (XF 1)) (XF 1) = XF 1).
  { assert (E : rmul rn big (XF 1) (XF 1) = XF 1). { unfold rmul. rewrite xmul_pos by lra. rewrite Rmult_1_l. cbn [rd]. rewrite (one rn big b64_rounding). rewrite (proj2 (Rleb_false _ _)).
      - unfold xfin. rewrite (proj2 (Reqb_false 1 0)) by lra. reflexivity.
      - rewrite Rabs_R1. assert (B := big_p2 _ _ b64_rounding). assert (p2 0 <= p2 1000) by (apply p2_le; lia). rewrite p2_0 in *. lra. }
    rewrite !E. reflexivity. }
  rewrite ONE. assert (U : xge 345 (rdiv rn big d3 (XF 1))).
  { destruct D3 as [->|(r & -> & R0)]; unfold rdiv.
    - left. cbn. rewrite (proj2 (Rltb_false 1 0)) by lra. reflexivity.
    - assert (P := p2_pos (115 + 115 + 115)). cbn [xdiv xval]. rewrite (proj2 (Reqb_false 1 0)) by lra. unfold xfin. replace (r / 1) with r by lra.
      rewrite (proj2 (Reqb_false r 0)) by lra. apply rd_ge; [lia|exact R0]. }
  assert (Q := one_minus 344 _ U ltac:(lia)). set (q := rsub rn big (XF 1) _) in *.
  assert (Q2 := mul_le 344 _ _ Q Q ltac:(lia)). rewrite (mul_over (344 + 344) 344 _ _ Q2 Q ltac:(lia)).
  rewrite (xltb_val (XF d) (XF 1) d 1 eq_refl eq_refl), (proj2 (Rltb_false d 1)) by lra. unfold rmul. cbn. rewrite (proj2 (Reqb_true 0 0) eq_refl). reflexivity.
Qed.
Lemma bisquare_nan d : p2 257 <= d -> r_bisquare rn big (XF d) (XF 1) = XN.
Proof.
  intros D. assert (P1 : p2 0 < p2 257) by (apply p2_lt; lia). rewrite p2_0 in P1. unfold r_bisquare. cbv zeta.
  assert (X : xge 257 (XF d)) by (right; eauto). assert (D2 := mul_ge 257 257 _ _ X X ltac:(lia)). set (d2 := rmul rn big (XF d) (XF d)) in *.
  assert (E : rmul rn big (XF 1) (XF 1) = XF 1). { unfold rmul. rewrite xmul_pos by lra. rewrite Rmult_1_l. cbn [rd]. rewrite (one rn big b64_rounding). rewrite (proj2 (Rleb_false _ _)).
      - unfold xfin. rewrite (proj2 (Reqb_false 1 0)) by lra. reflexivity.
      - rewrite Rabs_R1. assert (B := big_p2 _ _ b64_rounding). assert (p2 0 <= p2 1000) by (apply p2_le; lia). rewrite p2_0 in *. lra. }
  rewrite E. assert (U : xge 514 (rdiv rn big d2 (XF 1))).
  { destruct D2 as [->|(r & -> & R0)]; unfold rdiv.
    - left. cbn. rewrite (proj2 (Rltb_false 1 0)) by lra. reflexivity.
    - assert (P := p2_pos (257 + 257)). cbn [xdiv xval]. rewrite (proj2 (Reqb_false 1 0)) by lra. unfold xfin. replace (r / 1) with r by lra.
      rewrite (proj2 (Reqb_false r 0)) by lra. apply rd_ge; [lia|exact R0]. }
  assert (Q := one_minus 513 _ U ltac:(lia)). set (q := rsub rn big (XF 1) _) in *.
  assert (QQ : rmul rn big q q = XI false).
  { destruct Q as [->|(r & -> & R0)]; [reflexivity|]. unfold rmul. assert (P := p2_pos 513). rewrite xmul_negs by lra. apply rd_over.
    assert (p2 1024 <= p2 (513 + 513)) by (apply p2_le; lia). rewrite p2_add in H. nra. }
  rewrite QQ, (xltb_val (XF d) (XF 1) d 1 eq_refl eq_refl), (proj2 (Rltb_false d 1)) by lra. unfold rmul. cbn. rewrite (proj2 (Reqb_true 0 0) eq_refl). reflexivity.
Qed.
Lemma gaussian_nan fe d h : p2 512 <= d -> p2 512 <= h -> r_gaussian rn big fe (XF d) (XF h) = XN.
Proof.
  intros D H. assert (X : xge 512 (XF d)) by (right; eauto). assert (Y : xge 512 (XF h)) by (right; eauto). unfold r_gaussian.
  rewrite (sq_over 512 _ X), (sq_over 512 _ Y) by lia. unfold rmul. cbn. rewrite (proj2 (Reqb_false (-2) 0)), (proj2 (Rltb_true (-2) 0)) by lra. reflexivity.
Qed.
(** Underflow. *)
Lemma b64_tiny r : 0 <= r <= p2 (-1075) -> rn r = 0.
Proof.
  intros [[P|<-] L]; [|apply b64_zero]. rewrite b64_pos by auto. assert (E : (exponent r <= -1075)%Z).
  { destruct (exponent_spec r P) as [A _]. destruct (Z_le_gt_dec (exponent r) (-1075)); auto. exfalso. assert (p2 (-1075) < p2 (exponent r)) by (apply p2_lt; lia). lra. }
  assert (S : spacing r = p2 (-1074)) by (unfold spacing; f_equal; lia). assert (SP := spacing_pos r).
  assert (H : 0 < r / spacing r <= 1 / 2).
  { split; [apply Rdiv_lt_0_compat; auto|]. apply Rmult_le_reg_r with (spacing r); auto. unfold Rdiv at 1. rewrite Rmult_assoc, Rinv_l by lra. rewrite S.
    change (-1074)%Z with (1 + -1075)%Z. rewrite p2_add, p2_1. lra. }
  replace (nearest (r / spacing r)) with 0%Z; [lra|]. unfold nearest. rewrite (Int_part_unique (r / spacing r) 0) by lra. cbv zeta.
  destruct (Rltb (r / spacing r - 0) (1 / 2)) eqn:E1; [reflexivity|]. rewrite (proj2 (Rltb_false (1 / 2) (r / spacing r - 0))) by lra. reflexivity.
Qed.
Lemma square_tiny h : 0 < h <= p2 (-538) -> rmul rn big (XF h) (XF h) = XF 0.
Proof.
  intros [P L]. unfold rmul. rewrite xmul_pos by auto. assert (S : h * h <= p2 (-1075)).
  { apply Rle_trans with (p2 (-538 + -538)); [rewrite p2_add; nra|apply p2_le; lia]. }
  assert (B : h * h < big). { assert (B := big_p2 _ _ b64_rounding). assert (p2 (-1075) <= p2 1000) by (apply p2_le; lia). lra. }
  cbn [rd]. rewrite (proj2 (Rleb_false _ _)) by (rewrite Rabs_right; nra). rewrite b64_tiny by nra. rewrite (proj2 (Rltb_false (h * h) 0)) by nra.
  unfold xfin. rewrite (proj2 (Reqb_true 0 0) eq_refl). reflexivity.
Qed.
Lemma square_zero : rmul rn big (XF 0) (XF 0) = XF 0.
Proof.
  unfold rmul. cbn [xmul xval]. rewrite Rmult_0_l. unfold xfin. rewrite (proj2 (Reqb_true 0 0) eq_refl). cbn [xsign]. rewrite (proj2 (Rltb_false 0 0)) by lra. cbn [xorb].
  cbn [rd]. rewrite Rabs_R0, (proj2 (Rleb_false big 0)). 2:{ assert (B := big_p2 _ _ b64_rounding). assert (P := p2_pos 1000). lra. }
  rewrite b64_zero. unfold xfin. rewrite (proj2 (Reqb_true 0 0) eq_refl), (proj2 (Rltb_false 0 0)) by lra. reflexivity.
Qed.
Lemma gaussian_tiny fe h : 0 < h <= p2 (-538) -> r_gaussian rn big fe (XF 0) (XF h) = XN.
Proof.
  intros H. unfold r_gaussian. rewrite square_zero, square_tiny by auto.
  assert (E : rmul rn big (XF (-2)) (XF 0) = XNZ).
  { unfold rmul. cbn [xmul xval]. rewrite Rmult_0_r. unfold xfin. rewrite (proj2 (Reqb_true 0 0) eq_refl). cbn [xsign].
    rewrite (proj2 (Rltb_true (-2) 0)), (proj2 (Rltb_false 0 0)) by lra. reflexivity. }
  rewrite E. unfold rdiv. cbn [xdiv xval]. rewrite (proj2 (Reqb_true 0 0) eq_refl). reflexivity.
Qed.
Lemma bisquare_tiny h : 0 < h <= p2 (-538) -> r_bisquare rn big (XF 0) (XF h) = XN.
Proof.
  intros H. unfold r_bisquare. cbv zeta. rewrite square_zero, square_tiny by auto. unfold rdiv. cbn [xdiv xval]. rewrite (proj2 (Reqb_true 0 0) eq_refl).
  cbn [rd]. unfold rsub, xsub. cbn [xopp xadd rd]. unfold rmul at 2. cbn [xmul rd]. unfold rmul. destruct (xltb (XF 0) (XF h)); reflexivity.
Qed.
(** Underflow of exp. *)
Lemma ln2_le1 : ln 2 <= 1.
Proof. assert (H := exp_ineq1 1 ltac:(lra)). rewrite <- (ln_exp 1). left. apply ln_increasing; lra. Qed.
Lemma exp_tiny x : x <= -1075 -> exp64 x = 0.
Proof.
  intros L. apply b64_tiny. split; [left; apply exp_pos|]. rewrite p2_exp. apply exp_le. assert (A := ln2_le1). assert (B := ln2_pos).
  change (IZR (-1075)) with (- 1075). nra.
Qed.
Lemma exponential_vanish d : 1075 <= d <= p2 50 -> xval (r_exponential rn big exp64 (XF d) (XF 1)) = Some 0.
Proof.
  intros [D0 D1]. assert (V := RK_val rn big exp64 b64_rounding Exponential (XF d) (XF 1) d 1 eq_refl eq_refl ltac:(lra)).
  assert (A : p2 (-50) <= p2 0) by (apply p2_le; lia). assert (B : p2 0 <= p2 100) by (apply p2_le; lia). rewrite p2_0 in A, B.
  cbn [r_kernel RK] in V. rewrite V by lra. f_equal. apply exp_tiny. replace (- d / 1) with (- d) by lra. rewrite b64_opp.
  enough (1075 <= rn d) by lra. assert (N : rn (INR 1075) = INR 1075). { apply b64_int. apply Rle_trans with (p2 11); [|apply p2_le; lia]. rewrite INR_IZR_INZ. change (Z.of_nat 1075) with 1075%Z. unfold p2. simpl. lra. }
  assert (E : INR 1075 = 1075) by (rewrite INR_IZR_INZ; reflexivity). rewrite E in N. rewrite <- N. apply b64_mono. exact D0.
Qed.
(** Weights. *)
Lemma far_main fe d : (p2 115 <= d -> r_weight rn big fe Tricube false (XF 1) [XF d] = Ok [XN]) /\ (p2 257 <= d -> r_weight rn big fe Bisquare false (XF 1) [XF d] = Ok [XN]).
Proof. split; intros D; cbn [r_weight map r_kernel]; [rewrite tricube_nan|rewrite bisquare_nan]; auto. Qed.
Lemma large_main fe d h : p2 512 <= d -> p2 512 <= h -> r_weight rn big fe Gaussian false (XF h) [XF d] = Ok [XN].
Proof. intros D H. cbn [r_weight map r_kernel]. rewrite gaussian_nan; auto. Qed.
Lemma small_main fe h : 0 < h <= p2 (-538) -> r_weight rn big fe Gaussian false (XF h) [XF 0] = Ok [XN] /\ r_weight rn big fe Bisquare false (XF h) [XF 0] = Ok [XN].
Proof. intros H. split; cbn [r_weight map r_kernel]; [rewrite gaussian_tiny|rewrite bisquare_tiny]; auto. Qed.
Lemma vanish_main d : 1075 <= d <= p2 50 ->
  returns_values (r_weight rn big (fun x => rn (exp x)) Exponential false (XF 1) [XF d]) [0] /\ moderate [d] /\ usable_rounded false 1 [d] /\ compact Exponential = false.
Proof.
  intros D. assert (A : p2 (-50) <= p2 0) by (apply p2_le; lia). assert (B : p2 0 <= p2 50) by (apply p2_le; lia). rewrite p2_0 in A, B. split; [|split; [|split]].
  - cbn [r_weight map r_kernel]. assert (E := exponential_vanish d D). unfold exp64 in E. eexists. split; [reflexivity|]. unfold xvals. cbn [map]. rewrite E. reflexivity.
  - constructor; [right; lra|constructor].
  - unfold usable_rounded. lra.
  - reflexivity.
Qed.
