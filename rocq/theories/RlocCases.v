(** A case of the accuracy of local sums, and the boxcar kernel. *)
From Coq Require Import Reals Bool List ZArith Arith Lra Lia Permutation.
From Verif Require Import Outcome XReal XRealFacts Sums KernelModel KernelSpec KernelProofs RoundModel RoundSpec RoundProofs RoundMain RoundAcc RoundAcc2 Binary64 RoundCases
  RdistModel RdistSpec RdistProofs RdistCases RdistW RgwssModel RgwssSpec RgwssProofs RgwssMain RgwssCases RnormModel RnormSpec RnormProofs RlocModel RlocSpec RlocMain.
Import ListNotations.
Local Open Scope R_scope.

(** One division is an inversion. *)
Definition div1 (s : xd) : outcome xd := if xltb (XF 0) s then Ok (rdiv binary64 binary64_big (XF 1) s) else Throw.
Lemma div1_inverts : inverts div1.
Proof.
  intros s r V [L H]. assert (P := p2_pos (-400)). unfold div1. rewrite (xltb_val (XF 0) s 0 r eq_refl V), (proj2 (Rltb_true _ _)) by lra.
  assert (IP : 0 < / r) by (apply Rinv_0_lt_compat; lra).
  assert (IU : / r <= p2 400). { apply Rle_trans with (/ p2 (-400)); [apply Rinv_le_contravar; lra|]. right. change 400%Z with (0 - -400)%Z. rewrite p2_sub, p2_0. unfold Rdiv. ring. }
  assert (IL : p2 (-450) <= / r). { apply Rle_trans with (/ p2 450); [|apply Rinv_le_contravar; lra]. right. change (-450)%Z with (0 - 450)%Z. rewrite p2_sub, p2_0. unfold Rdiv. ring. }
  assert (B : bnd 400 (1 / r)) by (unfold bnd, Rdiv; rewrite Rmult_1_l, Rabs_right; lra).
  eexists. exists (binary64 (1 / r)). split; [reflexivity|]. split; [apply (v_div _ _ b64_rounding 400); auto; [lia|lra]|].
  unfold Rdiv. rewrite Rmult_1_l. eapply Rle_trans; [apply b64_faithful; rewrite Rabs_right by lra; apply Rle_trans with (p2 (-450)); [apply p2_le; lia|exact IL]|].
  rewrite Rabs_right by lra. apply Rmult_le_compat_r; [lra|]. apply p2_le. lia.
Qed.

Lemma loc_sited : sited true 2 ta [tb; tc] /\ sited false 2 ta [tb; tc].
Proof.
  destruct vector_case as (_ & PP & SP & MP & U1 & U2 & DB). destruct ta_placed as (PA & _).
  assert (L : INR (length [tb; tc]) <= p2 40) by (cbn [length INR]; replace (1 + 1) with (p2 1) by (rewrite p2_1; lra); apply p2_le; lia).
  split; (split; [exact PA|]; split; [exact PP|]; split; [exact SP|]; split; [exact MP|]; split; [assumption|]; split; [exact DB|exact L]).
Qed.
Lemma loc_column : column (p2 200) 2 [XF 1; XF 2] [1; 2] /\ column (p2 200) 2 [XF 3; XNZ] [3; 0].
Proof.
  assert (B : 4 <= p2 200) by (replace 4 with (p2 2) by (unfold p2; simpl; lra); apply p2_le; lia).
  split; (split; [reflexivity|]; split; [reflexivity|]); repeat (apply Forall_cons; [unfold Rabs; destruct (Rcase_abs _); lra|]); apply Forall_nil.
Qed.
(** The sums at a fixed bandwidth with the bi-square kernel are large enough for the quotient. *)
Lemma loc_large : let S := local_sum (K Bisquare) 2 None ta [tb; tc] [1; 2] [1; 2] in p2 (-300) <= S /\ 2 * slack 2 (magnitude [1; 2] [1; 2]) <= S.
Proof.
  cbv zeta. unfold local_sum, magnitude, slack. cbn [length bigsum nth]. rewrite planar_ab, planar_ac. assert (Us := u_small).
  assert (E1 : p2 (-49) <= / 1024) by (apply Rle_trans with (p2 (-10)); [apply p2_le; lia|unfold p2; simpl; lra]).
  assert (E2 : p2 (-44) <= / 1024) by (apply Rle_trans with (p2 (-10)); [apply p2_le; lia|unfold p2; simpl; lra]).
  assert (E3 : p2 (-590) <= / 1024) by (apply Rle_trans with (p2 (-10)); [apply p2_le; lia|unfold p2; simpl; lra]).
  assert (E4 : p2 (-300) <= / 1024) by (apply Rle_trans with (p2 (-10)); [apply p2_le; lia|unfold p2; simpl; lra]).
  assert (Q1 := p2_pos (-49)). assert (Q2 := p2_pos (-44)). assert (Q3 := p2_pos (-590)).
  assert (KB : forall d, 1 <= d <= 5 / 4 -> / 4 <= K Bisquare d 2).
  { intros d D. cbn [K]. destruct (Rlt_dec d 2); [|lra]. assert (X : d / 2 * (d / 2) <= 25 / 64) by nra. 
    assert (39 / 64 <= 1 - (d / 2) ^ 2) by (simpl; lra). nra. }
  assert (A := KB (1 + 1 / 2 * u) ltac:(lra)). assert (B := KB (1 + 3 / 2 * u) ltac:(lra)).
  rewrite !(Rabs_right (_ * _)) by lra. cbn [INR]. split; nra.
Qed.

(** The boxcar kernel loses a neighbour inside the bandwidth, and its row with it. *)
Lemma boxcar_entry fe : exists b o p, sited false b o [p] /\ planar o p < b /\ K Boxcar (planar o p) b = 1 /\ forall xx x xy y, column (p2 400) 1 xx [x] -> column (p2 400) 1 xy [y] ->
  exists s, r_local binary64 binary64_big fe Boxcar false (XF b) (pair_XF o) [pair_XF p] None (Leaf 0) xx xy = Ok s /\ xval s = Some 0.
Proof.
  destruct (boxcar_lost fe) as (b & o & p & DB & FD & SP & PL & U & LT & RV). exists b, o, p.
  inversion FD as [|? ? (_ & _ & PO) FD']; subst. inversion FD' as [|? ? (_ & _ & PP) _]; subst. split.
  { split; [exact PO|]. split; [apply Forall_cons; [exact PP|apply Forall_nil]|]. split; [apply Forall_cons; [exact SP|apply Forall_nil]|]. split; [apply Forall_cons; [right; exact PL|apply Forall_nil]|]. split; [exact U|]. split; [exact DB|].
    cbn [length INR]. rewrite <- p2_0. apply p2_le. lia. }
  split; [exact LT|]. split; [cbn [K]; destruct (Rlt_dec (planar o p) b); [reflexivity|contradiction]|].
  intros xx x xy y (VX & _ & BX) (VY & _ & BY). destruct RV as (ws & E & VW). unfold r_local, r_weights_at. rewrite E. cbn [obind].
  rewrite (xvals_len _ _ VX), (xvals_len _ _ VY), (xvals_len _ _ VW). cbn [length Nat.eqb andb]. eexists. split; [reflexivity|].
  unfold r_cross. cbn [osum].
  assert (X0 := xvals_at _ _ 0 VX ltac:(cbn; lia)). assert (Y0 := xvals_at _ _ 0 VY ltac:(cbn; lia)). assert (W0 := xvals_at _ _ 0 VW ltac:(cbn; lia)). cbn [nth] in X0, Y0, W0.
  assert (Z : bnd 0 0) by (unfold bnd; rewrite Rabs_R0; left; apply p2_pos).
  assert (P1 : xval (rmul binary64 binary64_big (at_ xx 0) (at_ ws 0)) = Some 0).
  { rewrite (v_mul _ _ b64_rounding 0 _ _ x 0); try lia; auto; rewrite Rmult_0_r; [rewrite b64_zero; reflexivity|exact Z]. }
  rewrite (v_mul _ _ b64_rounding 0 _ _ 0 y); try lia; auto; rewrite Rmult_0_l; [rewrite b64_zero; reflexivity|exact Z].
Qed.
Lemma seven_column : column (p2 400) 1 [XF 7] [7].
Proof.
  split; [reflexivity|]. split; [reflexivity|]. apply Forall_cons; [|apply Forall_nil]. rewrite Rabs_right by lra. apply Rle_trans with (p2 3); [unfold p2; simpl; lra|apply p2_le; lia].
Qed.
