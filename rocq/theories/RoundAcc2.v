(** Accuracy of the rounded adaptive bandwidth and of whole lists of weights. *)
From Coq Require Import Reals Bool List ZArith Lra Lia.
From Verif Require Import Outcome XReal XRealFacts RSort KernelModel KernelSpec KernelProofs RoundModel RoundSpec RoundProofs RoundMain Binary64 RoundCases RoundAcc.
Import ListNotations.
Local Open Scope R_scope.

Section Round.
Variables (rn : R -> R) (big : R) (fe : R -> R).
Hypothesis RN : rounding rn big.
Hypothesis FE : exponential fe.
Hypothesis FA : faithful rn.
Hypothesis EA : accurate_exp fe.

Definition tau : R := p2 (-1000).
Lemma round_tau x : 0 <= x -> 0 <= rn x /\ x * (1 - e) - tau <= rn x <= x * (1 + e) + tau.
Proof.
  intros X. assert (E := e_small). assert (T := p2_pos (-1000)). fold tau in T. assert (P := pos rn big RN x X). split; auto. destruct (Rle_dec (p2 (-1000)) x) as [L|L].
  - assert (A := FA x). rewrite (Rabs_right x) in A by lra. specialize (A L). fold e in A. assert (A1 := Rle_abs (rn x - x)). assert (A2 := Rle_abs (- (rn x - x))). rewrite Rabs_Ropp in A2. lra.
  - assert (B : rn x <= tau) by (unfold tau; rewrite <- (pow rn big RN (-1000)) by lia; apply (mono rn big RN); lra). fold tau in L. nra.
Qed.
Lemma tau_small : tau * p2 55 <= e * e * p2 (-50).
Proof. unfold tau, e. rewrite <- !p2_add. apply p2_le. lia. Qed.
(** The product of the two rounded factors, rounded. *)
Lemma prod_tau D f : 0 <= D <= p2 50 -> 0 <= f <= 1 ->
  f * D * (1 - e) ^ 3 - tau * p2 53 <= rn (rn D * rn f) <= f * D * (1 + e) ^ 3 + tau * p2 53.
Proof.
  intros [D0 D1] [F0 F1]. assert (E := e_small). assert (T := p2_pos (-1000)). fold tau in T.
  destruct (round_tau D D0) as (PD & LD & UD). destruct (round_tau f F0) as (PF & LF & UF). set (a := rn D) in *. set (b := rn f) in *.
  destruct (round_tau (a * b) ltac:(nra)) as (PP & LP & UP). set (p := rn (a * b)) in *.
  assert (B : 4 <= p2 50) by (apply Rle_trans with (p2 2); [unfold p2; simpl; lra|apply p2_le; lia]). assert (T1 : tau <= 1) by (unfold tau; rewrite <- p2_0; apply p2_le; lia).
  assert (E53 : p2 53 = 8 * p2 50) by (change 53%Z with (3 + 50)%Z; rewrite p2_add; f_equal; unfold p2; simpl; lra). rewrite E53. set (M := p2 50) in *.
  assert (FD : 0 <= f * D <= M) by (split; nra).
  split.
  - assert (L2 : f * D * (1 - e) ^ 2 - tau * (D + f) <= a * b).
    { assert (A0 : D * (1 - e) <= a + tau) by lra. assert (B0 : f * (1 - e) <= b + tau) by lra.
      assert (X1 : 0 <= D * (1 - e)) by nra. assert (X2 : 0 <= f * (1 - e)) by nra.
      assert (X3 : D * (1 - e) <= D) by nra. assert (X4 : f * (1 - e) <= f) by nra.
      replace (f * D * (1 - e) ^ 2) with ((D * (1 - e)) * (f * (1 - e))) by ring. set (x := D * (1 - e)) in *. set (y := f * (1 - e)) in *.
      destruct (Rle_dec x tau) as [S|S]; [assert (x * y <= tau * f) by (apply Rmult_le_compat; lra); nra|].
      destruct (Rle_dec y tau) as [S'|S']; [assert (x * y <= D * tau) by (apply Rmult_le_compat; lra); nra|].
      assert ((x - tau) * (y - tau) <= a * b) by (apply Rmult_le_compat; lra). nra. }
    apply Rle_trans with (a * b * (1 - e) - tau); auto. assert ((f * D * (1 - e) ^ 2 - tau * (D + f)) * (1 - e) <= a * b * (1 - e)) by (apply Rmult_le_compat_r; lra).
    assert (tau * (D + f) * (1 - e) <= tau * (2 * M)). { rewrite Rmult_assoc. apply Rmult_le_compat_l; [lra|]. nra. }
    assert (tau * 1 <= tau * M) by (apply Rmult_le_compat_l; lra). replace (f * D * (1 - e) ^ 3) with (f * D * (1 - e) ^ 2 * (1 - e)) by ring.
    assert (0 <= tau * M) by nra. lra.
  - assert (U2 : a * b <= f * D * (1 + e) ^ 2 + tau * (4 * M)).
    { assert (a * b <= (D * (1 + e) + tau) * (f * (1 + e) + tau)) by (apply Rmult_le_compat; lra).
      replace ((D * (1 + e) + tau) * (f * (1 + e) + tau)) with (f * D * (1 + e) ^ 2 + tau * (D * (1 + e) + f * (1 + e) + tau)) in H by ring.
      assert (tau * (D * (1 + e) + f * (1 + e) + tau) <= tau * (4 * M)); [|lra]. apply Rmult_le_compat_l; [lra|]. nra. }
    apply Rle_trans with (a * b * (1 + e) + tau); auto. assert (a * b * (1 + e) <= (f * D * (1 + e) ^ 2 + tau * (4 * M)) * (1 + e)) by (apply Rmult_le_compat_r; lra).
    assert (0 <= tau * M) by nra. assert (tau * 1 <= tau * M) by (apply Rmult_le_compat_l; lra). replace (f * D * (1 + e) ^ 3) with (f * D * (1 + e) ^ 2 * (1 + e)) by ring.
    assert (tau * (4 * M) * e <= tau * (4 * M) * (/ 1024)) by (apply Rmult_le_compat_l; lra). lra.
Qed.
Lemma interp_rel dk dk1 f : p2 (-50) <= dk -> dk <= dk1 -> dk1 <= p2 50 -> 0 <= f <= 1 ->
  rel 5 (rn (dk + rn (rn (dk1 - dk) * rn f))) (dk + f * (dk1 - dk)).
Proof.
  intros Dk L Dk1 F. assert (E := e_small). assert (T := p2_pos (-1000)). fold tau in T. assert (P50 := p2_pos (-50)).
  assert (PT := prod_tau (dk1 - dk) f ltac:(lra) F). set (p := rn (rn (dk1 - dk) * rn f)) in *. set (h := dk + f * (dk1 - dk)). set (g := f * (dk1 - dk)) in *.
  assert (G : 0 <= g) by (unfold g; apply Rmult_le_pos; lra).
  assert (TS := tau_small). assert (TT : tau * p2 53 <= e * e * dk).
  { apply Rle_trans with (tau * p2 55); [apply Rmult_le_compat_l; [lra|apply p2_le; lia]|]. apply Rle_trans with (e * e * p2 (-50)); auto. apply Rmult_le_compat_l; [nra|auto]. }
  assert (p0 : 0 <= p). { apply (pos rn big RN). apply Rmult_le_pos; apply (pos rn big RN); lra. }
  assert (R4 : rel 4 (dk + p) h).
  { split.
    - assert (A : h * (1 - e) ^ 3 - e * e * dk <= dk + p).
      { assert ((1 - e) ^ 3 <= 1) by apply pw_range. unfold h. assert (dk * (1 - e) ^ 3 <= dk) by nra. lra. }
      apply Rle_trans with (h * (1 - e) ^ 3 - e * e * dk); auto. replace (h * (1 - e) ^ 4) with (h * (1 - e) ^ 3 - h * (e * (1 - e) ^ 3)) by ring.
      assert (e * e * dk <= h * (e * (1 - e) ^ 3)); [|lra]. assert (B := bern 3). cbn [INR] in B. assert (e <= (1 - e) ^ 3) by lra.
      apply Rle_trans with (dk * (e * (1 - e) ^ 3)); [|apply Rmult_le_compat_r; [apply Rmult_le_pos; lra|unfold h; lra]].
      replace (e * e * dk) with (dk * (e * e)) by ring. apply Rmult_le_compat_l; [lra|]. apply Rmult_le_compat_l; lra.
    - assert (A : dk + p <= h * (1 + e) ^ 3 + e * e * dk).
      { assert (1 <= (1 + e) ^ 3) by (apply pow_R1_Rle; lra). unfold h. assert (dk <= dk * (1 + e) ^ 3) by nra. lra. }
      assert (A4 : dk + p <= h * (1 + e) ^ 4).
      { apply Rle_trans with (h * (1 + e) ^ 3 + e * e * dk); auto. replace (h * (1 + e) ^ 4) with (h * (1 + e) ^ 3 + h * (e * (1 + e) ^ 3)) by ring. apply Rplus_le_compat_l.
        assert (1 <= (1 + e) ^ 3) by (apply pow_R1_Rle; lra). replace (e * e * dk) with (dk * (e * e)) by ring. apply Rmult_le_compat; [lra|nra|unfold h; lra|]. apply Rmult_le_compat_l; lra. }
      assert (Q := pw_range 4). apply Rle_trans with (h * (1 + e) ^ 4 * (1 - e) ^ 4); [apply Rmult_le_compat_r; lra|].
      replace (h * (1 + e) ^ 4 * (1 - e) ^ 4) with (h * (1 - e * e) ^ 4) by ring. assert (C : (1 - e * e) ^ 4 <= 1). { rewrite <- (pow1 4). apply pow_incr. nra. }
      assert (0 <= h) by (unfold h; lra). nra. }
  apply (round_relj rn FA 4); [| |exact R4].
  - apply Rle_trans with (p2 (-50)); [apply p2_le; lia|lra].
  - unfold h. lra.
Qed.
Lemma bandwidth_rel b ds h h0 : moderate ds -> usable_rounded true b ds -> INR (length ds) <= p2 53 ->
  (b < INR (length ds) -> rn (b / INR (length ds)) < 1) -> adaptive_rounded rn b ds h -> adaptive_bandwidth b ds h0 ->
  rel 5 h h0 /\ p2 (-50) <= h0 <= p2 90.
Proof.
  intros M U LN DN [A1 A2] [B1 B2]. assert (NN := moderate_nonneg ds M). destruct U as [[U0 U1] CZ].
  assert (N1 : 1 <= INR (length ds)) by (apply (le_INR 1); lia). assert (Z0 := pos_INR (count_zero ds)). assert (E := e_small). assert (P50 := p2_pos (-50)). assert (Q50 := p2_pos 50).
  destruct (Rlt_dec b (INR (length ds))) as [L|L].
  - destruct (A1 (DN L)) as (k & dk & dk1 & K0 & K1 & K2 & ->). destruct (B1 L) as (k' & dk' & dk1' & K0' & K1' & K2' & ->).
    assert (k' = k). { assert (INR k < INR (S k')) by (rewrite S_INR; lra). assert (INR k' < INR (S k)) by (rewrite S_INR; lra). apply INR_lt in H, H0. lia. } subst k'.
    assert (dk' = dk) by (apply (kth_unique k ds); auto). assert (dk1' = dk1) by (apply (kth_unique (S k) ds); auto). subst dk' dk1'.
    assert (CK : (count_zero ds < k)%nat). { apply INR_lt. lra. }
    assert (Pk : 0 < dk) by (apply (kth_pos_iff k ds dk NN K1); auto). assert (Mk := moderate_pos ds dk M (proj1 K1) Pk). assert (Uk1 := moderate_up ds dk1 M (proj1 K2)).
    assert (Ord : dk <= dk1) by (apply (kth_mono k (S k) ds); auto). split; [apply interp_rel; lra|].
    assert (p2 50 <= p2 90) by (apply p2_le; lia). split; [nra|]. apply Rle_trans with dk1; [nra|lra].
  - assert (L' : INR (length ds) <= b) by lra. assert (Q1 : 1 <= b / INR (length ds)). { apply Rmult_le_reg_r with (INR (length ds)); [lra|]. unfold Rdiv. rewrite Rmult_assoc, Rinv_l; lra. }
    assert (QU : b / INR (length ds) <= p2 40). { apply Rle_trans with b; auto. apply Rmult_le_reg_r with (INR (length ds)); [lra|]. unfold Rdiv. rewrite Rmult_assoc, Rinv_l by lra. nra. }
    destruct A2 as (dm & K1 & ->); [rewrite <- (one rn big RN); apply (mono rn big RN); auto|]. destruct (B2 L') as (dm' & K2 & ->).
    assert (dm' = dm) by (apply (kth_unique (length ds) ds); auto). subst dm'. assert (Pk : 0 < dm) by (apply (kth_pos_iff (length ds) ds dm NN K1); auto).
    assert (Mk := moderate_pos ds dm M (proj1 K1) Pk). assert (R1 : rel 1 (rn (b / INR (length ds))) (b / INR (length ds))).
    { apply (round_rel rn FA). apply Rle_trans with 1; auto. rewrite <- p2_0. apply p2_le. lia. }
    assert (G1 : 1 <= rn (b / INR (length ds))) by (rewrite <- (one rn big RN); apply (mono rn big RN); auto).
    split.
    + apply (rel_le 2); [apply (pos rn big RN); nra|nra|lia|]. apply (round_relj rn FA 1); [|nra|].
      * apply Rle_trans with (p2 (-50)); [apply p2_le; lia|]. nra.
      * apply (rel_mul 1 0); try nra; auto. apply rel_refl.
    + split; [nra|]. change 90%Z with (40 + 50)%Z. rewrite p2_add. apply Rmult_le_compat; lra.
Qed.
Lemma bandwidth_acc b ds h h0 : moderate ds -> usable_rounded true b ds -> INR (length ds) <= p2 53 ->
  (b < INR (length ds) -> rn (b / INR (length ds)) < 1) -> adaptive_rounded rn b ds h -> adaptive_bandwidth b ds h0 ->
  Rabs (h - h0) <= p2 (-49) * h0.
Proof.
  intros M U LN DN A B. destruct (bandwidth_rel b ds h h0 M U LN DN A B) as [R5 [L1 L2]]. assert (P50 := p2_pos (-50)). assert (E := e_small).
  assert (H : 0 <= h). { destruct R5 as [X _]. assert (Q := pw_range 5). nra. }
  assert (X := rel_abs 5 h h0 ltac:(lia) H ltac:(lra) R5). assert (Y := Rmin_r h h0). assert (INR 5 = 5) by (cbn; lra). rewrite H0 in X.
  assert (E3 : p2 (-49) = 8 * e). { change (-49)%Z with (3 + -52)%Z. rewrite p2_add. unfold e. f_equal. unfold p2. simpl. lra. }
  rewrite E3. apply Rle_trans with ((5 + 1) * e * Rmin h h0); auto. nra.
Qed.
Lemma acc_main k adaptive xb b xs ds : xval xb = Some b -> xvals xs ds -> moderate ds -> usable_rounded adaptive b ds -> INR (length ds) <= p2 53 ->
  (adaptive = true -> k <> Boxcar /\ (b < INR (length ds) -> rn (b / INR (length ds)) < 1)) ->
  exists h0 rs, (if adaptive then adaptive_bandwidth b ds h0 else h0 = b) /\ returns_values (r_weight rn big fe k adaptive xb xs) rs /\
  Forall2 (fun d w => Rabs (w - K k d h0) <= p2 (if adaptive then -45 else -47)) ds rs.
Proof.
  intros Hb H M U LN AD. assert (E := e_small). assert (P50 := p2_pos (-50)).
  assert (E7 : p2 (-45) = 128 * e). { change (-45)%Z with (7 + -52)%Z. rewrite p2_add. unfold e. f_equal. unfold p2. simpl. lra. }
  assert (E5 : p2 (-47) = 32 * e). { change (-47)%Z with (5 + -52)%Z. rewrite p2_add. unfold e. f_equal. unfold p2. simpl. lra. }
  assert (LB : p2 50 <= p2 100) by (apply p2_le; lia). assert (LB' : p2 90 * 2 <= p2 100) by (rewrite <- p2_1, <- p2_add; apply p2_le; lia).
  assert (Z0 := pos_INR (count_zero ds)).
  destruct (r_weight_val rn big fe RN k adaptive xb b xs ds Hb H M U LN) as (h & EH & LH & V).
  assert (UU : usable adaptive b ds). { destruct adaptive; cbn [usable usable_rounded] in *; [destruct U; repeat split; try lra; auto|lra]. }
  destruct (weight_val k adaptive xb b xs ds Hb H (moderate_nonneg ds M) UU) as (ws & h0 & W & EF & _).
  exists h0, (map (fun d => RK rn fe k d h) ds). split; [exact EF|]. split; [exact V|].
  assert (G : forall d, In d ds -> d = 0 \/ rng d). { intros d I. destruct (Req_dec d 0); auto. right. assert (A := moderate_up ds d M I). assert (B := moderate_pos ds d M I ltac:(lra)). split; lra. }
  destruct adaptive.
  - destruct (AD eq_refl) as [NB DN]. destruct (bandwidth_rel b ds h h0 M U LN DN EH EF) as [R5 [L1 L2]]. assert (Hp := low_pos h LH).
    assert (X := rel_up 5 h h0 ltac:(lia) ltac:(lra) ltac:(lra) R5). assert (I5 : INR 5 = 5) by (cbn; lra). rewrite I5 in X.
    assert (HU : h <= p2 100) by nra. clear V. revert G. clear -RN FE FA EA NB R5 L1 L2 LH HU E E7 LB LB' P50 Hp I5. induction ds as [|d ds IH]; intros G; constructor; [|apply IH; intros; apply G; right; auto].
    eapply Rle_trans; [apply (RK_close rn big fe RN FE FA EA k 5 d h0 h); auto; [apply G; left; auto|split; nra|split; auto|intros ->; congruence]|].
    rewrite I5, E7. apply Rmult_le_compat_r; lra.
  - cbn in EH, EF. unfold effective_rounded in EH. subst h h0. unfold usable_rounded in U. clear V. revert G. clear -RN FE FA EA U E E5 LB P50. induction ds as [|d ds IH]; intros G; constructor; [|apply IH; intros; apply G; right; auto].
    eapply Rle_trans; [apply (RK_close rn big fe RN FE FA EA k 0 d b b); auto; [lia|apply G; left; auto|split; lra|split; lra|apply rel_refl]|].
    cbn [INR]. rewrite E5. apply Rmult_le_compat_r; lra.
Qed.
End Round.

(** Binary64. *)
Lemma nearest_err x : Rabs (IZR (nearest x) - x) <= / 2.
Proof.
  unfold nearest. cbv zeta. assert (I := Int_part_spec x). set (z := Int_part x) in *. apply Rabs_le.
  destruct (Rltb (x - IZR z) (1 / 2)) eqn:A; [apply Rltb_true in A; lra|apply Rltb_false in A].
  destruct (Rltb (1 / 2) (x - IZR z)) eqn:B; [apply Rltb_true in B; rewrite plus_IZR; lra|apply Rltb_false in B].
  destruct (Z.even z); rewrite ?plus_IZR; lra.
Qed.
Lemma b64_faithful_pos x : p2 (-1000) <= x -> Rabs (binary64 x - x) <= p2 (-53) * x.
Proof.
  intros L. assert (P := p2_pos (-1000)). rewrite b64_pos by lra. assert (SP := spacing_pos x). assert (EX := exponent_spec x ltac:(lra)).
  assert (S : spacing x = p2 (-52) * p2 (exponent x)).
  { unfold spacing. rewrite <- p2_add. f_equal. assert (-1001 <= exponent x)%Z; [|lia]. destruct (Z_le_gt_dec (-1001) (exponent x)); auto. exfalso.
    assert (p2 (exponent x + 1) <= p2 (-1001)) by (apply p2_le; lia). assert (p2 (-1001) <= p2 (-1000)) by (apply p2_le; lia). lra. }
  replace (spacing x * IZR (nearest (x / spacing x)) - x) with (spacing x * (IZR (nearest (x / spacing x)) - x / spacing x)) by (field; lra).
  rewrite Rabs_mult, (Rabs_right (spacing x)) by lra. assert (N := nearest_err (x / spacing x)).
  apply Rle_trans with (spacing x * / 2); [apply Rmult_le_compat_l; lra|]. rewrite S. replace (p2 (-53)) with (p2 (-52) * / 2).
  2:{ change (-52)%Z with (1 + -53)%Z. rewrite p2_add, p2_1. field. }
  assert (Q := p2_pos (-52)). assert (p2 (-52) * p2 (exponent x) <= p2 (-52) * x) by (apply Rmult_le_compat_l; lra). lra.
Qed.
Lemma b64_faithful : faithful binary64.
Proof.
  intros x L. assert (H : p2 (-53) <= p2 (-52)) by (apply p2_le; lia). assert (G := Rabs_pos x).
  apply Rle_trans with (p2 (-53) * Rabs x); [|nra]. destruct (Rcase_abs x) as [N|N].
  - rewrite (Rabs_left x) in * by lra. replace (binary64 x - x) with (- (binary64 (- x) - - x)) by (rewrite b64_opp; ring). rewrite Rabs_Ropp. apply b64_faithful_pos. exact L.
  - rewrite (Rabs_right x) in * by lra. apply b64_faithful_pos. exact L.
Qed.
Lemma b64_exp_accurate : accurate_exp (fun x => binary64 (exp x)).
Proof.
  intros x L. assert (P := exp_pos x). assert (E1 : exp x <= 1) by (rewrite <- exp_0; apply exp_le; exact L). apply (round_abs binary64 binary64_big b64_rounding b64_faithful). lra.
Qed.
(** A quotient of a double and a larger whole number is below one. *)
Lemma b64_pred1 : binary64 (1 - p2 (-53)) = 1 - p2 (-53).
Proof.
  assert (A : p2 (-53) < p2 (-1)) by (apply p2_lt; lia). assert (H : p2 (-1) = / 2) by (unfold p2; simpl; lra). assert (P := p2_pos (-53)).
  assert (EX : exponent (1 - p2 (-53)) = (-1)%Z) by (apply exponent_unique; change (-1 + 1)%Z with 0%Z; rewrite p2_0; lra).
  assert (S : spacing (1 - p2 (-53)) = p2 (-53)) by (unfold spacing; rewrite EX; reflexivity). rewrite b64_pos by lra. rewrite S.
  assert (I : (1 - p2 (-53)) / p2 (-53) = IZR (2 ^ 53 - 1)).
  { rewrite minus_IZR, <- p2_int by lia. assert (p2 53 * p2 (-53) = 1) by (rewrite <- p2_add; reflexivity). apply Rmult_eq_reg_r with (p2 (-53)); [|lra]. unfold Rdiv. rewrite Rmult_assoc, Rinv_l by lra. lra. }
  rewrite I, nearest_int, <- I. field. lra.
Qed.
Lemma b64_quot b n : binary64 b = b -> 1 <= b -> INR n <= p2 53 -> b < INR n -> binary64 (b / INR n) < 1.
Proof.
  intros FB B1 LN L. assert (P := p2_pos (-53)). assert (EX := exponent_spec b ltac:(lra)). set (E := exponent b) in *.
  assert (E0 : (0 <= E)%Z). { destruct (Z_le_gt_dec 0 E); auto. exfalso. assert (p2 (E + 1) <= p2 0) by (apply p2_le; lia). rewrite p2_0 in *. lra. }
  assert (E52 : (E <= 52)%Z). { destruct (Z_le_gt_dec E 52); auto. exfalso. assert (p2 53 <= p2 E) by (apply p2_le; lia). lra. }
  assert (S : spacing b = p2 (E - 52)) by (unfold spacing; fold E; f_equal; lia). rewrite b64_pos in FB by lra. rewrite S in FB. set (z := nearest _) in FB.
  set (s := p2 (E - 52)) in *. assert (Ps : 0 < s) by apply p2_pos.
  assert (G : forall m : Z, b < s * IZR m -> b <= s * IZR m - s).
  { intros m Hm. rewrite <- FB in Hm |- *. apply Rmult_lt_reg_l in Hm; auto. apply lt_IZR in Hm. assert (IZR z <= IZR (m - 1)) by (apply IZR_le; lia). rewrite minus_IZR in H. nra. }
  assert (M : b <= INR n * (1 - p2 (-53))).
  { assert (S1 : s * p2 (52 - E) = 1) by (unfold s; rewrite <- p2_add; replace (E - 52 + (52 - E))%Z with 0%Z by lia; apply p2_0).
    assert (S2 : p2 (E + 1) * p2 (-53) = s) by (unfold s; rewrite <- p2_add; f_equal; lia).
    destruct (Rlt_dec (INR n) (p2 (E + 1))) as [N|N].
    - assert (A : INR n = s * IZR (Z.of_nat n * 2 ^ (52 - E))). { rewrite mult_IZR, <- p2_int, <- INR_IZR_INZ by lia. nra. }
      assert (B : b <= INR n - s) by (rewrite A; apply G; rewrite <- A; exact L). nra.
    - assert (A : p2 (E + 1) = s * IZR (2 ^ 53)). { rewrite <- p2_int by lia. unfold s. rewrite <- p2_add. f_equal. lia. }
      assert (B : b <= p2 (E + 1) - s) by (rewrite A; apply G; rewrite <- A; lra).
      assert (p2 (-53) < 1) by (rewrite <- p2_0; apply p2_lt; lia). nra. }
  apply Rle_lt_trans with (1 - p2 (-53)); [|lra]. rewrite <- b64_pred1. apply b64_mono. apply Rmult_le_reg_r with (INR n); [lra|]. unfold Rdiv. rewrite Rmult_assoc, Rinv_l by lra. lra.
Qed.
(** The box: the nearest neighbour itself is dropped. *)
Definition box_ds : list R := [1; 1 + p2 (-52)].
Lemma b64_one : binary64 1 = 1.
Proof. apply (one _ _ b64_rounding). Qed.
Lemma b64_above1 k : (-52 <= k <= -1)%Z -> binary64 (1 + p2 k) = 1 + p2 k.
Proof.
  intros K. assert (P := p2_pos k). assert (Q : p2 k < 1) by (rewrite <- p2_0; apply p2_lt; lia).
  assert (EX : exponent (1 + p2 k) = 0%Z) by (apply exponent_unique; change (0 + 1)%Z with 1%Z; rewrite p2_0, p2_1; lra).
  assert (S : spacing (1 + p2 k) = p2 (-52)) by (unfold spacing; rewrite EX; reflexivity). rewrite b64_pos by lra. rewrite S. assert (P52 := p2_pos (-52)).
  assert (I : (1 + p2 k) / p2 (-52) = IZR (2 ^ 52 + 2 ^ (k + 52))).
  { rewrite plus_IZR, <- !p2_int by lia. apply Rmult_eq_reg_r with (p2 (-52)); [|lra]. unfold Rdiv. rewrite Rmult_assoc, Rinv_l, Rmult_1_r by lra. rewrite Rmult_plus_distr_r, <- !p2_add.
    replace (52 + -52)%Z with 0%Z by lia. replace (k + 52 + -52)%Z with k by lia. rewrite p2_0. ring. }
  rewrite I, nearest_int, <- I. field. lra.
Qed.
Lemma b64_drop : binary64 (1 + p2 (-54)) = 1.
Proof.
  assert (P := p2_pos (-54)). assert (Q : p2 (-54) < 1) by (rewrite <- p2_0; apply p2_lt; lia).
  assert (EX : exponent (1 + p2 (-54)) = 0%Z) by (apply exponent_unique; change (0 + 1)%Z with 1%Z; rewrite p2_0, p2_1; lra).
  assert (S : spacing (1 + p2 (-54)) = p2 (-52)) by (unfold spacing; rewrite EX; reflexivity). rewrite b64_pos by lra. rewrite S. assert (P52 := p2_pos (-52)).
  assert (I : (1 + p2 (-54)) / p2 (-52) = IZR (2 ^ 52) + / 4).
  { rewrite <- !p2_int by lia. apply Rmult_eq_reg_r with (p2 (-52)); [|lra]. unfold Rdiv. rewrite Rmult_assoc, Rinv_l, Rmult_1_r by lra. rewrite Rmult_plus_distr_r, <- !p2_add.
    replace (52 + -52)%Z with 0%Z by lia. change (-52)%Z with (2 + -54)%Z. rewrite p2_add, p2_0. replace (p2 2) with 4 by (unfold p2; simpl; lra). lra. }
  assert (N : nearest ((1 + p2 (-54)) / p2 (-52)) = (2 ^ 52)%Z).
  { rewrite I. unfold nearest. rewrite (Int_part_unique (IZR (2 ^ 52) + / 4) (2 ^ 52)) by lra. cbv zeta. rewrite (proj2 (Rltb_true _ (1 / 2))) by lra. reflexivity. }
  rewrite N, <- p2_int by lia. rewrite <- p2_add. reflexivity.
Qed.
Lemma box_main fe : exists b h0 ds rs, moderate ds /\ usable_rounded true b ds /\ binary64 b = b /\ Forall (fun d => binary64 d = d) ds /\
  adaptive_bandwidth b ds h0 /\ returns_values (r_weight binary64 binary64_big fe Boxcar true (XF b) (map XF ds)) rs /\
  exists d, nth_error ds 0 = Some d /\ K Boxcar d h0 = 1 /\ nth_error rs 0 = Some 0.
Proof.
  assert (P := p2_pos (-52)). assert (Q : p2 (-52) < 1) by (rewrite <- p2_0; apply p2_lt; lia).
  assert (A50 : p2 (-50) <= 1) by (rewrite <- p2_0; apply p2_le; lia). assert (B50 : 2 <= p2 50) by (rewrite <- p2_1; apply p2_le; lia). assert (B40 : 2 <= p2 40) by (rewrite <- p2_1; apply p2_le; lia).
  assert (B53 : 2 <= p2 53) by (rewrite <- p2_1; apply p2_le; lia).
  assert (Q2 : p2 (-2) = / 4) by (unfold p2; simpl; lra).
  assert (M : moderate box_ds) by (repeat (apply Forall_cons; [right; lra|]); apply Forall_nil).
  assert (CZ : count_zero box_ds = 0%nat) by (unfold count_zero, box_ds; cbn [filter]; destruct (Req_EM_T 1 0), (Req_EM_T (1 + p2 (-52)) 0); try lra; reflexivity).
  assert (U : usable_rounded true (5 / 4) box_ds) by (unfold usable_rounded; rewrite CZ; cbn [INR length box_ds]; split; [lra|lia]).
  assert (F : binary64 (5 / 4) = 5 / 4) by (replace (5 / 4) with (1 + p2 (-2)) by (rewrite Q2; lra); apply b64_above1; lia).
  assert (K1 : kth_smallest 1 box_ds 1).
  { unfold kth_smallest, count_lt, count_le, box_ds. cbn [filter]. split; [left; reflexivity|]. destruct (Rlt_dec 1 1), (Rlt_dec (1 + p2 (-52)) 1), (Rle_dec 1 1), (Rle_dec (1 + p2 (-52)) 1); try lra; cbn; lia. }
  assert (K2 : kth_smallest 2 box_ds (1 + p2 (-52))).
  { unfold kth_smallest, count_lt, count_le, box_ds. cbn [filter]. split; [right; left; reflexivity|]. destruct (Rlt_dec 1 (1 + p2 (-52))), (Rlt_dec (1 + p2 (-52)) (1 + p2 (-52))), (Rle_dec 1 (1 + p2 (-52))), (Rle_dec (1 + p2 (-52)) (1 + p2 (-52))); try lra; cbn; lia. }
  assert (LN : INR (length box_ds) = 2) by (cbn; lra).
  destruct (r_weight_val binary64 binary64_big fe b64_rounding Boxcar true (XF (5 / 4)) (5 / 4) (map XF box_ds) box_ds eq_refl eq_refl M U ltac:(rewrite LN; lra)) as (h & EH & LH & V).
  assert (H1 : h = 1).
  { destruct EH as [A _]. rewrite LN in A. destruct A as (k & dk & dk1 & Kb & Kk & Kk1 & ->); [apply (b64_quot (5 / 4) 2); cbn [INR]; auto; lra|].
    assert (k = 1%nat). { assert (INR k < INR 2) by (cbn [INR]; lra). assert (INR 0 < INR k) by (cbn [INR]; lra). apply INR_lt in H, H0. lia. } subst k.
    rewrite (kth_unique 1 box_ds dk 1), (kth_unique 2 box_ds dk1 (1 + p2 (-52))) by auto. replace (1 + p2 (-52) - 1) with (p2 (-52)) by ring. cbn [INR]. replace (5 / 4 - 1) with (p2 (-2)) by (rewrite Q2; lra).
    rewrite !b64_p2 by lia. rewrite <- p2_add, b64_p2 by lia. apply b64_drop. }
  subst h. exists (5 / 4), (1 + (5 / 4 - 1) * (p2 (-52))), box_ds, (map (fun d => RK binary64 fe Boxcar d 1) box_ds).
  split; [exact M|]. split; [exact U|]. split; [exact F|]. split; [constructor; [apply b64_one|constructor; [apply b64_above1; lia|constructor]]|]. split.
  - split; rewrite LN; [|lra]. intros _. exists 1%nat, 1, (1 + p2 (-52)). split; [cbn [INR]; lra|]. split; [auto|]. split; [auto|]. cbn [INR]. ring.
  - split; [exact V|]. exists 1. split; [reflexivity|]. split.
    + cbn [K]. destruct (Rlt_dec 1 (1 + (5 / 4 - 1) * p2 (-52))); [reflexivity|lra].
    + cbn [nth_error map box_ds RK]. rewrite (proj2 (Rltb_false 1 1)) by lra. rewrite Rmult_0_l, b64_zero. reflexivity.
Qed.
(** Binary64 as a whole. *)
Lemma b64_acc k adaptive xb b xs ds : xval xb = Some b -> xvals xs ds -> moderate ds -> usable_rounded adaptive b ds -> INR (length ds) <= p2 53 ->
  binary64 b = b -> (adaptive = true -> k <> Boxcar) ->
  exists h0 rs, (if adaptive then adaptive_bandwidth b ds h0 else h0 = b) /\
  returns_values (r_weight binary64 binary64_big (fun x => binary64 (exp x)) k adaptive xb xs) rs /\
  Forall2 (fun d w => Rabs (w - K k d h0) <= p2 (if adaptive then -45 else -47)) ds rs.
Proof.
  intros Hb H M U LN FB NB. apply acc_main; auto.
  - apply b64_rounding.
  - apply RoundCases.exp64_ok.
  - apply b64_faithful.
  - apply b64_exp_accurate.
  - intros ->. split; auto. intros L. apply b64_quot; auto. destruct U as [[U0 _] _]. assert (Z0 := pos_INR (count_zero ds)). lra.
Qed.
