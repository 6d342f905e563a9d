(** Rounded distances in binary64. *)
From Coq Require Import Reals Bool List ZArith Lra Lia.
From Verif Require Import Outcome XReal XRealFacts KernelModel KernelSpec KernelProofs DistModel DistProofs RoundModel RoundSpec RoundProofs RoundMain Binary64 RoundCases RoundAcc RoundAcc2 RdistModel RdistSpec RdistProofs.
Import ListNotations.
Local Open Scope R_scope.

Lemma b64_odd : odd binary64.
Proof. exact b64_opp. Qed.

(** An approximate triangle inequality. *)
Lemma planar_euclid o p : planar o p = euclid o p.
Proof. unfold planar, euclid. f_equal. ring. Qed.
Lemma triangle_main rn big : rounding rn big -> faithful rn -> odd rn -> forall xa xb xc a b c,
  at_point xa a -> at_point xb b -> at_point xc c -> placed a -> placed b -> placed c ->
  separated a b -> separated b c -> separated a c ->
  exists ab bc ac, xval (r_euclid rn big xa xb) = Some ab /\ xval (r_euclid rn big xb xc) = Some bc /\ xval (r_euclid rn big xa xc) = Some ac /\
  ac <= (1 + p2 (-48)) * (ab + bc).
Proof.
  intros RN FA OD xa xb xc a b c A B C PA PB PC SA SB SC.
  destruct (acc_main rn big RN FA OD xa xb a b A B PA PB SA) as (ab & E1 & H1).
  destruct (acc_main rn big RN FA OD xb xc b c B C PB PC SB) as (bc & E2 & H2).
  destruct (acc_main rn big RN FA OD xa xc a c A C PA PC SC) as (ac & E3 & H3).
  exists ab, bc, ac. split; [exact E1|]. split; [exact E2|]. split; [exact E3|].
  assert (T := euclid_triangle a b c). rewrite <- !planar_euclid in T.
  assert (N1 := sqrt_pos ((fst b - fst a) ^ 2 + (snd b - snd a) ^ 2)). fold (planar a b) in N1.
  assert (N2 := sqrt_pos ((fst c - fst b) ^ 2 + (snd c - snd b) ^ 2)). fold (planar b c) in N2.
  assert (E : p2 (-48) = 4 * p2 (-50)) by (change (-48)%Z with (2 + -50)%Z; rewrite p2_add; f_equal; unfold p2; simpl; lra).
  assert (S : 0 < p2 (-50) <= / 1024).
  { split; [apply p2_pos|]. apply Rle_trans with (p2 (-10)); [apply p2_le; lia|]. unfold p2; simpl; lra. }
  rewrite E. set (q := p2 (-50)) in *. unfold Rabs in *. destruct (Rcase_abs (ab - planar a b)), (Rcase_abs (bc - planar b c)), (Rcase_abs (ac - planar a c)); nra.
Qed.

(** Numbers between 1 and 2. *)
Definition u : R := p2 (-52).
Lemma u_small : 0 < u <= / 1024.
Proof. exact e_small. Qed.
Lemma u_inv : IZR (2 ^ 52) * u = 1.
Proof. rewrite <- p2_int by lia. unfold u. rewrite <- p2_add. reflexivity. Qed.
Lemma b64_12 k f : (0 <= k < 1024)%Z -> 0 <= f < 1 ->
  binary64 (1 + (IZR k + f) * u) = 1 + IZR (k + (if Rltb f (1 / 2) then 0 else if Rltb (1 / 2) f then 1 else if Z.even k then 0 else 1)) * u.
Proof.
  intros K F. assert (U := u_small). assert (V := u_inv). assert (Ck : 0 <= IZR k < 1024) by (split; [apply IZR_le|apply IZR_lt]; lia).
  assert (X : 0 <= (IZR k + f) * u <= 3 / 2 - / 2 + / 1024). 
  { unfold u. assert (p2 (-52) <= p2 (-12)) by (apply p2_le; lia). assert (E : p2 (-12) = / 4096) by (unfold p2; simpl; lra). rewrite E in H. assert (P := p2_pos (-52)). nra. }
  assert (Y : (IZR k + f) * u < 1).
  { unfold u. assert (p2 (-52) <= p2 (-12)) by (apply p2_le; lia). assert (E : p2 (-12) = / 4096) by (unfold p2; simpl; lra). rewrite E in H. assert (P := p2_pos (-52)). nra. }
  set (x := 1 + (IZR k + f) * u).
  assert (EX : exponent x = 0%Z) by (apply exponent_unique; change (0 + 1)%Z with 1%Z; rewrite p2_0, p2_1; unfold x; lra).
  assert (S : spacing x = u) by (unfold spacing; rewrite EX; reflexivity). rewrite b64_pos by (unfold x; lra). rewrite S.
  assert (I : x / u = IZR (2 ^ 52 + k) + f).
  { rewrite plus_IZR. apply Rmult_eq_reg_r with u; [|lra]. unfold Rdiv. rewrite Rmult_assoc, Rinv_l, Rmult_1_r by lra. unfold x. rewrite <- V at 1. ring. }
  assert (N : nearest (x / u) = (2 ^ 52 + (k + (if Rltb f (1 / 2) then 0 else if Rltb (1 / 2) f then 1 else if Z.even k then 0 else 1)))%Z).
  { rewrite I. unfold nearest. rewrite (Int_part_unique _ (2 ^ 52 + k)) by lra. cbv zeta. replace (IZR (2 ^ 52 + k) + f - IZR (2 ^ 52 + k)) with f by ring.
    rewrite Z.even_add. change (Z.even (2 ^ 52)) with true. destruct (Rltb f (1 / 2)), (Rltb (1 / 2) f), (Z.even k); cbn [Bool.eqb]; lia. }
  rewrite N, plus_IZR, Rmult_plus_distr_l, (Rmult_comm u (IZR (2 ^ 52))), V. ring.
Qed.
Lemma b64_down k f x : (0 <= k < 1024)%Z -> 0 <= f < 1 / 2 -> x = 1 + (IZR k + f) * u -> binary64 x = 1 + IZR k * u.
Proof. intros K F ->. rewrite b64_12 by (auto; lra). rewrite (proj2 (Rltb_true f (1 / 2))) by lra. rewrite Z.add_0_r. reflexivity. Qed.
Lemma b64_up k f x : (0 <= k < 1024)%Z -> 1 / 2 < f < 1 -> x = 1 + (IZR k + f) * u -> binary64 x = 1 + IZR (k + 1) * u.
Proof. intros K F ->. rewrite b64_12 by (auto; lra). rewrite (proj2 (Rltb_false f (1 / 2))) by lra. rewrite (proj2 (Rltb_true (1 / 2) f)) by lra. reflexivity. Qed.
Lemma b64_tie k : (0 <= k < 1024)%Z -> binary64 (1 + (IZR k + 1 / 2) * u) = 1 + IZR (if Z.even k then k else k + 1) * u.
Proof.
  intros K. rewrite b64_12 by (auto; lra). rewrite (proj2 (Rltb_false (1/2) (1 / 2))) by lra.
  destruct (Z.even k); rewrite ?Z.add_0_r; reflexivity.
Qed.
Lemma b64_whole k : (0 <= k < 1024)%Z -> binary64 (1 + IZR k * u) = 1 + IZR k * u.
Proof. intros K. apply (b64_down k 0); auto; [lra|]. ring. Qed.

(** Three points on a line. *)
Definition ta : R * R := (- p2 (-53), 0).
Definition tb : R * R := (1, 0).
Definition tc : R * R := (1 + p2 (-52), 0).
Lemma half_u : p2 (-53) = u / 2.
Proof. unfold u. change (-53)%Z with (-52 - 1)%Z. rewrite p2_sub, p2_1. reflexivity. Qed.
Lemma RD_line a r : binary64 a = r -> RD binary64 a 0 = binary64 (sqrt (binary64 (binary64 (r * r)))).
Proof. intros <-. unfold RD. rewrite b64_zero, Rmult_0_l, b64_zero, Rplus_0_r. reflexivity. Qed.
Lemma RD_one a : binary64 a = 1 -> RD binary64 a 0 = 1.
Proof. intros E. rewrite (RD_line a 1 E), Rmult_1_l, !b64_one, sqrt_1, b64_one. reflexivity. Qed.
Lemma RD_ab : RD binary64 (1 - - p2 (-53)) (0 - 0) = 1.
Proof.
  replace (0 - 0) with 0 by ring. apply RD_one. replace (1 - - p2 (-53)) with (1 + (IZR 0 + 1 / 2) * u) by (rewrite half_u; lra).
  rewrite b64_tie by lia. cbn [Z.even]. lra.
Qed.
Lemma RD_bc : RD binary64 (1 + p2 (-52) - 1) (0 - 0) = u.
Proof.
  replace (0 - 0) with 0 by ring. replace (1 + p2 (-52) - 1) with (p2 (-52)) by ring. rewrite (RD_line _ (p2 (-52))) by (apply b64_p2; lia).
  rewrite <- p2_add, !b64_p2 by lia. rewrite p2_add, sqrt_square by (left; apply p2_pos). apply b64_p2. lia.
Qed.
Lemma u_tiny : u <= / 4096.
Proof. unfold u. apply Rle_trans with (p2 (-12)); [apply p2_le; lia|]. unfold p2; simpl; lra. Qed.
Lemma RD_ac : RD binary64 (1 + p2 (-52) - - p2 (-53)) (0 - 0) = 1 + 2 * u.
Proof.
  assert (U := u_small). assert (V := u_tiny). replace (0 - 0) with 0 by ring. rewrite (RD_line _ (1 + 2 * u)).
  - rewrite (b64_down 4 (4 * u) ((1 + 2 * u) * (1 + 2 * u))) by (lia || lra || ring). rewrite b64_whole by lia.
    assert (L : 1 + 7 / 4 * u < sqrt (1 + 4 * u) < 1 + 2 * u).
    { split.
      - rewrite <- (sqrt_square (1 + 7 / 4 * u)) by lra. apply sqrt_lt_1; nra.
      - rewrite <- (sqrt_square (1 + 2 * u)) by lra. apply sqrt_lt_1; nra. }
    set (s := sqrt (1 + 4 * u)) in *. rewrite (b64_up 1 ((s - 1 - u) / u) s); [cbn; lra|lia| |field; lra].
    split; (apply Rmult_lt_reg_r with u; [lra|]; unfold Rdiv; rewrite ?Rmult_assoc, ?Rinv_l by lra; lra).
  - replace (1 + p2 (-52) - - p2 (-53)) with (1 + (IZR 1 + 1 / 2) * u) by (rewrite half_u; unfold u; lra). rewrite b64_tie by lia. cbn [Z.even]. cbn. lra.
Qed.

Definition pair_XF (p : R * R) : xd * xd := (XF (fst p), XF (snd p)).
Lemma pair_at p : at_point (pair_XF p) p.
Proof. split; reflexivity. Qed.
Lemma ta_placed : placed ta /\ placed tb /\ placed tc.
Proof.
  assert (U := u_small). assert (H : 2 <= p2 400) by (rewrite <- p2_1; apply p2_le; lia). unfold placed; cbn [fst snd ta tb tc]. rewrite half_u. fold u.
  rewrite Rabs_Ropp, Rabs_R0, Rabs_R1, (Rabs_right (u / 2)), (Rabs_right (1 + u)) by lra. lra.
Qed.
Lemma ta_sep : separated ta tb /\ separated tb tc /\ separated ta tc.
Proof.
  assert (U := u_small). assert (H : p2 (-400) <= u) by (apply p2_le; lia). unfold separated; cbn [fst snd ta tb tc]. rewrite half_u. fold u.
  split; [|split]; (split; [right|left; reflexivity]); rewrite Rabs_right; lra.
Qed.
Lemma ta_double : is_double (fst ta) /\ is_double (fst tb) /\ is_double (fst tc) /\ is_double 0.
Proof.
  unfold is_double; cbn [fst ta tb tc]. rewrite b64_opp, b64_p2, b64_one, b64_above1, b64_zero by lia. auto.
Qed.
Lemma triangle_fails : exists a b c ab bc ac,
  Forall (fun p => is_double (fst p) /\ is_double (snd p) /\ placed p) [a; b; c] /\ separated a b /\ separated b c /\ separated a c /\
  xval (r_euclid binary64 binary64_big (pair_XF a) (pair_XF b)) = Some ab /\
  xval (r_euclid binary64 binary64_big (pair_XF b) (pair_XF c)) = Some bc /\
  xval (r_euclid binary64 binary64_big (pair_XF a) (pair_XF c)) = Some ac /\
  ab + bc < ac.
Proof.
  destruct ta_placed as (PA & PB & PC). destruct ta_sep as (SA & SB & SC). destruct ta_double as (DA & DB & DC & D0). assert (U := u_small).
  exists ta, tb, tc, 1, u, (1 + 2 * u). split; [repeat apply Forall_cons; auto|]. do 3 (split; auto).
  rewrite (r_val _ _ b64_rounding _ _ ta tb), (r_val _ _ b64_rounding _ _ tb tc), (r_val _ _ b64_rounding _ _ ta tc) by (auto; apply pair_at).
  cbn [fst snd ta tb tc]. rewrite RD_ab, RD_bc, RD_ac. repeat split; auto. lra.
Qed.

(** Underflow: distinct points at distance zero. *)
Lemma near_zero d : 0 < d <= p2 (-538) -> xval (r_euclid binary64 binary64_big (XF 0, XF 0) (XF d, XF 0)) = Some 0.
Proof.
  intros D. assert (L : p2 (-538) <= p2 400) by (apply p2_le; lia). assert (Q := p2_pos 400).
  rewrite (r_val _ _ b64_rounding (XF 0, XF 0) (XF d, XF 0) (0, 0) (d, 0)); try (split; reflexivity).
  - cbn [fst snd]. f_equal. rewrite !Rminus_0_r. rewrite (RD_line d (binary64 d) eq_refl).
    assert (B : 0 <= binary64 d <= p2 (-538)).
    { split; [apply b64_nonneg; lra|]. rewrite <- (b64_p2 (-538)) by lia. apply b64_mono. lra. }
    rewrite (b64_tiny (binary64 d * binary64 d)); [rewrite b64_zero, sqrt_0, b64_zero; reflexivity|]. split; [nra|].
    apply Rle_trans with (p2 (-538 + -538)); [|apply p2_le; lia]. rewrite p2_add. nra.
  - split; cbn [fst snd]; rewrite Rabs_R0; lra.
  - split; cbn [fst snd]; rewrite ?Rabs_R0, ?(Rabs_right d); lra.
Qed.
(** Overflow. *)
Lemma far_infinite d : p2 512 <= d -> r_euclid binary64 binary64_big (XF 0, XF 0) (XF d, XF 0) = XI false.
Proof.
  intros D. assert (P := p2_pos 512). unfold r_euclid. cbv zeta. cbn [fst snd].
  assert (G : xge 512 (rsub binary64 binary64_big (XF d) (XF 0))).
  { unfold rsub. assert (E : xval (xsub (XF d) (XF 0)) = Some (d - 0)) by (apply xval_xsub; reflexivity).
    destruct (xsub (XF d) (XF 0)) as [r| | |] eqn:X; cbn in E; try discriminate; injection E as E; rewrite Rminus_0_r in E; [subst r|exfalso; lra].
    apply rd_ge; auto. lia. }
  rewrite (sq_over 512 _ G) by lia.
  assert (V : xval (rmul binary64 binary64_big (rsub binary64 binary64_big (XF 0) (XF 0)) (rsub binary64 binary64_big (XF 0) (XF 0))) = Some (binary64 (0 * 0))).
  { assert (B0 : bnd 0 0) by (unfold bnd; rewrite Rabs_R0; left; apply p2_pos).
    assert (Z : xval (rsub binary64 binary64_big (XF 0) (XF 0)) = Some 0).
    { rewrite (v_sub _ _ b64_rounding 0 (XF 0) (XF 0) 0 0); try lia; try reflexivity; rewrite Rminus_0_r; [rewrite b64_zero; reflexivity|exact B0]. }
    apply (v_mul _ _ b64_rounding 0); try lia; auto. rewrite Rmult_0_l; exact B0. }
  unfold radd. destruct (rmul binary64 binary64_big (rsub binary64 binary64_big (XF 0) (XF 0)) _) as [r| | |]; cbn in V; try discriminate; reflexivity.
Qed.
