(** Weights from coordinates. *)
From Coq Require Import Reals Bool List ZArith Lra Lia.
From Verif Require Import Outcome XReal XRealFacts RSort KernelModel KernelSpec KernelProofs RoundModel RoundSpec RoundProofs RoundMain Binary64 RoundCases RoundAcc RoundAcc2 RdistModel RdistSpec RdistProofs RdistCases.
Import ListNotations.
Local Open Scope R_scope.

(** The kernels as functions of both arguments. *)
Definition eid : R -> R := fun x => x.
Lemma id_rounding : rounding eid (p2 1001).
Proof. constructor; unfold eid; auto. apply p2_lt. lia. Qed.
Lemma exp_exponential : exponential exp.
Proof. constructor; [apply exp_le|apply exp_0|intros; left; apply exp_pos]. Qed.
Lemma id_faithful : faithful eid.
Proof. intros x L. unfold eid. rewrite Rminus_diag_eq, Rabs_R0 by reflexivity. apply Rmult_le_pos; [left; apply p2_pos|apply Rabs_pos]. Qed.
Lemma exp_accurate : accurate_exp exp.
Proof. intros x L. rewrite Rminus_diag_eq, Rabs_R0 by reflexivity. left; apply p2_pos. Qed.
Lemma RK_id k d h : 0 < h -> RK eid exp k d h = K k d h.
Proof.
  intros H. unfold RK, K, sq2, cu, eid, Rltb. destruct k; try (destruct (Rlt_dec d h)); cbv zeta; try ring.
  all: first [f_equal; field; lra|field; lra].
Qed.
Lemma K_units k d h c : 0 < c -> 0 < h -> K k (c * d) (c * h) = K k d h.
Proof.
  intros C H. unfold K. replace (c * d / (c * h)) with (d / h) by (field; lra).
  destruct k; auto; destruct (Rlt_dec d h), (Rlt_dec (c * d) (c * h)); auto; exfalso; nra.
Qed.
Lemma K_close k m d h h' : (m <= 5)%nat -> k <> Boxcar -> p2 (-51) <= d <= p2 99 -> p2 (-51) <= h <= p2 99 -> p2 (-51) <= h' <= p2 99 ->
  rel m h' h -> Rabs (K k d h' - K k d h) <= (9 * INR m + 24) * e.
Proof.
  intros M NB D H H' R. assert (P := p2_pos (-51)).
  assert (A : p2 (-50) = 2 * p2 (-51)) by (change (-50)%Z with (1 + -51)%Z; rewrite p2_add, p2_1; reflexivity).
  assert (B : p2 100 = 2 * p2 99) by (change 100%Z with (1 + 99)%Z; rewrite p2_add, p2_1; reflexivity).
  rewrite <- (K_units k d h 2), <- (K_units k d h' 2) by lra. rewrite <- (RK_id k (2 * d) (2 * h')) by lra.
  apply (RK_close eid (p2 1001) exp id_rounding exp_exponential id_faithful exp_accurate); auto; try (unfold rng; rewrite A, B; lra).
  - destruct R as [R1 R2]. split; lra.
  - contradiction.
Qed.

Lemma F2_impl (A B : Type) (P Q : A -> B -> Prop) l l' : (forall a b, P a b -> Q a b) -> Forall2 P l l' -> Forall2 Q l l'.
Proof. intros H F. induction F; constructor; auto. Qed.
Lemma F2_flip (A B : Type) (P : A -> B -> Prop) l l' : Forall2 P l l' -> Forall2 (fun b a => P a b) l' l.
Proof. intros F. induction F; constructor; auto. Qed.
Lemma F2_length (A B : Type) (P : A -> B -> Prop) l l' : Forall2 P l l' -> length l = length l'.
Proof. intros F. induction F; cbn; auto. Qed.
(** Order statistics of lists that are close. *)
Lemma count_close c x y l l' : 0 < c -> Forall2 (fun a b => b * c <= a) l l' -> x < y * c -> (count_le x l <= count_lt y l')%nat.
Proof.
  intros C F L. unfold count_le, count_lt. induction F as [|a b l l' H F IH]; [cbn; lia|]. cbn [filter].
  destruct (Rle_dec a x), (Rlt_dec b y); cbn [length]; try lia. exfalso. assert (y * c <= b * c) by (apply Rmult_le_compat_r; lra). lra.
Qed.
Lemma kth_close c k l l' x y : 0 < c -> Forall2 (fun a b => b * c <= a) l l' -> kth_smallest k l x -> kth_smallest k l' y -> y * c <= x.
Proof.
  intros C F [_ [_ A]] [_ [B _]]. destruct (Rle_dec (y * c) x) as [|N]; auto. exfalso.
  assert (H := count_close c x y l l' C F ltac:(lra)). lia.
Qed.
Lemma kth_rel j k l l' x y : Forall2 (rel j) l l' -> kth_smallest k l x -> kth_smallest k l' y -> rel j x y.
Proof.
  intros F X Y. assert (P := pw_range j). split.
  - apply (kth_close _ k l l'); auto; [lra|]. revert F. apply F2_impl. intros a b [A _]. exact A.
  - apply (kth_close _ k l' l); auto; [lra|]. apply F2_flip in F. revert F. apply F2_impl. intros a b [_ A]. exact A.
Qed.
Lemma kth_exists k l : (0 < k <= length l)%nat -> exists x, kth_smallest k l x.
Proof.
  intros H. destruct (nth_error (rsort l) (k - 1)) as [x|] eqn:E.
  - apply rsort_kth in E. replace (S (k - 1)) with k in E by lia. eauto.
  - apply nth_error_None in E. rewrite rsort_length in E. lia.
Qed.
Lemma bandwidth_close j b l l' h : Forall2 (rel j) l l' -> nonneg l -> nonneg l' -> 1 <= b -> l <> [] -> adaptive_bandwidth b l h ->
  exists h', adaptive_bandwidth b l' h' /\ rel j h h'.
Proof.
  intros F N N' B NE [A1 A2]. assert (LE := F2_length _ _ _ _ _ F). assert (PW := pw_range j).
  destruct (Rlt_dec b (INR (length l))) as [L|L].
  - destruct (A1 L) as (k & dk & dk1 & Kb & Kk & Kk1 & ->).
    assert (K1 : (0 < k)%nat). { destruct k; [|lia]. cbn in Kb. lra. }
    assert (K2 : (S k <= length l)%nat) by (apply INR_lt; apply Rle_lt_trans with b; tauto).
    destruct (kth_exists k l' ltac:(lia)) as [dk' Kk']. destruct (kth_exists (S k) l' ltac:(lia)) as [dk1' Kk1'].
    exists (dk' + (b - INR k) * (dk1' - dk')). split.
    + split; rewrite <- LE; [|lra]. intros _. exists k, dk', dk1'. auto.
    + assert (R1 := kth_rel j k l l' dk dk' F Kk Kk'). assert (R2 := kth_rel j (S k) l l' dk1 dk1' F Kk1 Kk1').
      set (f := b - INR k). replace (dk + f * (dk1 - dk)) with ((1 - f) * dk + f * dk1) by ring.
      replace (dk' + f * (dk1' - dk')) with ((1 - f) * dk' + f * dk1') by ring. assert (Ff : 0 <= f < 1) by (unfold f; lra).
      destruct R1, R2. split; nra.
  - destruct (A2 ltac:(lra)) as (m & Km & ->).
    assert (LP : (0 < length l)%nat) by (destruct l; [contradiction|cbn; lia]). assert (LR : 0 < INR (length l)) by (apply lt_0_INR; auto).
    destruct (kth_exists (length l') l' ltac:(lia)) as [m' Km'].
    exists (b / INR (length l') * m'). rewrite <- LE in *. split.
    + split; rewrite <- LE; [lra|]. intros _. exists m'. auto.
    + assert (R1 := kth_rel j (length l) l l' m m' F Km Km'). assert (0 < b / INR (length l)) by (apply Rdiv_lt_0_compat; lra).
      destruct R1. split; nra.
Qed.

(** Points whose distance is zero or between 2^-49 and 2^49. *)
Lemma rel_zero j x y : rel j x y -> (x = 0 <-> y = 0).
Proof. intros [A B]. assert (P := pw_range j). split; intros ->; nra. Qed.
Lemma rel3_double x y : 0 <= x -> 0 <= y -> rel 3 x y -> y <= 2 * x /\ x <= 2 * y.
Proof. intros X Y R. assert (E := e_small). assert (U := rel_up 3 x y ltac:(lia) X Y R). assert (V := rel_up 3 y x ltac:(lia) Y X (rel_sym _ _ _ R)). cbn [INR] in U, V. split; nra. Qed.
Lemma count_zero_rel j l l' : Forall2 (rel j) l l' -> count_zero l = count_zero l'.
Proof.
  intros F. unfold count_zero. induction F as [|a b l l' H F IH]; auto. cbn [filter]. apply rel_zero in H.
  destruct (Req_EM_T a 0), (Req_EM_T b 0); cbn [length]; try lia; exfalso; tauto.
Qed.
Lemma p2_half k : p2 k = 2 * p2 (k - 1).
Proof. rewrite <- p2_1, <- p2_add. f_equal. lia. Qed.

Definition moderate_half (ds : list R) : Prop := Forall (fun d => d = 0 \/ p2 (-49) <= d <= p2 49) ds.
Lemma moderate_rel l l' : nonneg l -> Forall2 (rel 3) l l' -> moderate_half l' -> moderate l.
Proof.
  intros N F. induction F as [|a b l l' H F IH]; intros M; [constructor|]. inversion M; subst. inversion N; subst. constructor; [|auto; apply IH; auto].
  assert (P := p2_pos (-49)). destruct H2 as [->|B]; [left; apply (rel_zero 3 a 0); auto|right].
  assert (b0 : 0 <= b) by lra. destruct (rel3_double a b H4 b0 H) as [U V]. rewrite (p2_half (-49)) in B. rewrite (p2_half 50). change (-49 - 1)%Z with (-50)%Z in B. change (50 - 1)%Z with 49%Z. lra.
Qed.
Lemma half_nonneg l : moderate_half l -> nonneg l.
Proof. intros M. eapply Forall_impl; [|exact M]. intros a [->|H]; [lra|]. assert (P := p2_pos (-49)). lra. Qed.

Lemma point_close k j d d0 h h0 B : (j <= 3)%nat -> k <> Boxcar -> 0 <= d -> rel 3 d d0 -> d0 = 0 \/ p2 (-49) <= d0 <= p2 49 ->
  p2 (-50) <= h <= p2 91 -> p2 (-50) <= h0 <= p2 91 -> rel j h h0 -> 51 * e + (if (j =? 0)%nat then 0 else 51 * e) <= B ->
  Rabs (K k d h - K k d0 h0) <= B.
Proof.
  intros J NB D R0 M H H0 R Bd. assert (E := e_small). assert (P := p2_pos (-50)).
  assert (Z : 0 <= B) by (destruct (j =? 0)%nat; lra). destruct M as [->|M].
  - assert (d = 0) by (apply (rel_zero 3 d 0); auto). subst d.
    replace (K k 0 h - K k 0 h0) with 0; [rewrite Rabs_R0; auto|]. unfold K. replace (0 / h) with 0 by (field; lra). replace (0 / h0) with 0 by (field; lra).
    destruct k; try ring; destruct (Rlt_dec 0 h), (Rlt_dec 0 h0); lra.
  - assert (Q := p2_pos (-49)). destruct (rel3_double d d0 D ltac:(lra) R0) as [U V]. assert (Dp : 0 < d) by lra.
    assert (E1 : K k d h = K k d0 (h * (d0 / d))).
    { rewrite <- (K_units k d0 (h * (d0 / d)) (d / d0)); [f_equal; field; lra|apply Rdiv_lt_0_compat; lra|].
      apply Rmult_lt_0_compat; [lra|apply Rdiv_lt_0_compat; lra]. }
    assert (C : 1 / 2 <= d0 / d <= 2).
    { split; (apply Rmult_le_reg_r with d; [lra|]; unfold Rdiv; rewrite ?Rmult_assoc, Rinv_l by lra; lra). }
    assert (R2 : rel 3 (h * (d0 / d)) h).
    { assert (PW := pw_range 3). destruct R0 as [A1 A2]. split.
      - rewrite Rmult_assoc || idtac. apply Rmult_le_compat_l; [lra|]. apply Rmult_le_reg_r with d; [lra|]. unfold Rdiv; rewrite Rmult_assoc, Rinv_l by lra. lra.
      - rewrite Rmult_assoc. rewrite <- (Rmult_1_r h) at 2. apply Rmult_le_compat_l; [lra|]. apply Rmult_le_reg_r with d; [lra|]. replace (d0 / d * (1 - e) ^ 3 * d) with (d0 * (1 - e) ^ 3) by (field; lra). lra. }
    assert (B1 : p2 99 = 256 * p2 91) by (change 99%Z with (8 + 91)%Z; rewrite p2_add; f_equal; unfold p2; simpl; lra).
    assert (B2 := p2_half (-50)). change (-50 - 1)%Z with (-51)%Z in B2. assert (P51 := p2_pos (-51)). assert (P91 := p2_pos 91).
    assert (B3 : p2 49 <= p2 99) by (apply p2_le; lia). assert (B4 := p2_half (-49)). change (-49 - 1)%Z with (-50)%Z in B4.
    assert (T1 : Rabs (K k d0 (h * (d0 / d)) - K k d0 h) <= 51 * e).
    { eapply Rle_trans; [apply (K_close k 3)|cbn [INR]; lra]; auto; try lra. split; nra. }
    assert (T2 : Rabs (K k d0 h - K k d0 h0) <= (if (j =? 0)%nat then 0 else 51 * e)).
    { destruct (Nat.eqb_spec j 0) as [->|N].
      - destruct R as [A1 A2]. rewrite pow_O in A1, A2. assert (h = h0) by lra. subst. rewrite Rminus_diag_eq, Rabs_R0 by reflexivity. lra.
      - eapply Rle_trans; [apply (K_close k 3); auto; try lra|cbn [INR]; lra]. apply (rel_le j 3); auto; lra. }
    rewrite E1. replace (K k d0 (h * (d0 / d)) - K k d0 h0) with ((K k d0 (h * (d0 / d)) - K k d0 h) + (K k d0 h - K k d0 h0)) by ring.
    eapply Rle_trans; [apply Rabs_triang|]. lra.
Qed.

Lemma vector_main k adaptive xb b xo xps o ps :
  xval xb = Some b -> at_point xo o -> Forall2 at_point xps ps -> placed o -> Forall placed ps -> Forall (separated o) ps ->
  Forall (fun p => planar o p = 0 \/ p2 (-49) <= planar o p <= p2 49) ps ->
  usable_rounded adaptive b (map (planar o) ps) -> INR (length ps) <= p2 53 -> is_double b -> k <> Boxcar ->
  exists h0 rs, (if adaptive then adaptive_bandwidth b (map (planar o) ps) h0 else h0 = b) /\
  returns_values (r_weight_vector binary64 binary64_big (fun x => binary64 (exp x)) k adaptive xb xo xps) rs /\
  Forall2 (fun p w => Rabs (w - K k (planar o p) h0) <= p2 (if adaptive then -44 else -45)) ps rs.
Proof.
  intros Hb O XP PO PP SP MP U LN DB NB.
  set (ds0 := map (planar o) ps). set (ds := map (fun p => RD binary64 (fst p - fst o) (snd p - snd o)) ps).
  assert (M0 : moderate_half ds0) by (unfold moderate_half, ds0; rewrite Forall_map; exact MP).
  assert (REL : Forall2 (rel 3) ds ds0).
  { unfold ds, ds0. clear -SP. induction SP; cbn; constructor; auto. apply (sep_rel _ _ b64_rounding b64_faithful b64_odd). auto. }
  assert (NN : nonneg ds) by (unfold ds, nonneg; rewrite Forall_map; apply Forall_forall; intros; apply (RD_nonneg _ _ b64_rounding)).
  assert (NN0 := half_nonneg ds0 M0). assert (M := moderate_rel ds ds0 NN REL M0).
  assert (XV : xvals (r_distances binary64 binary64_big xo xps) ds).
  { unfold xvals, r_distances, ds. clear -XP PP PO O. induction XP as [|x p xps ps H XP IH]; [reflexivity|]. inversion PP; subst. cbn. f_equal; auto.
    apply (r_val _ _ b64_rounding); auto. }
  assert (LE : length ds = length ds0) by (unfold ds, ds0; rewrite !map_length; reflexivity).
  assert (LP : length ds0 = length ps) by (unfold ds0; apply map_length).
  assert (CZ := count_zero_rel 3 ds ds0 REL).
  assert (U' : usable_rounded adaptive b ds) by (unfold usable_rounded in *; fold ds0 in U; rewrite CZ, LE; exact U).
  destruct (b64_acc k adaptive xb b _ ds Hb XV M U' ltac:(rewrite LE, LP; exact LN) DB ltac:(auto)) as (h & rs & EH & V & F).
  assert (FIN : forall (B : R) h0 j, (forall d d0, 0 <= d -> rel 3 d d0 -> d0 = 0 \/ p2 (-49) <= d0 <= p2 49 -> Rabs (K k d h - K k d0 h0) <= B) ->
    p2 (if adaptive then -45 else -47) + B <= j -> Forall2 (fun p w => Rabs (w - K k (planar o p) h0) <= j) ps rs).
  { intros B h0 j Hc Hj. clear -F REL NN M0 Hc Hj. unfold ds, ds0 in *. revert rs F. induction ps as [|p ps IH]; intros rs F; inversion F; subst; constructor.
    - inversion REL; subst. inversion NN; subst. inversion M0; subst.
      replace (y - K k (planar o p) h0) with ((y - K k (RD binary64 (fst p - fst o) (snd p - snd o)) h) + (K k (RD binary64 (fst p - fst o) (snd p - snd o)) h - K k (planar o p) h0)) by ring.
      eapply Rle_trans; [apply Rabs_triang|]. eapply Rle_trans; [apply Rplus_le_compat; [exact H1|apply Hc; auto]|]. exact Hj.
    - inversion REL; subst. inversion NN; subst. inversion M0; subst. apply IH; auto. }
  assert (E45 : p2 (-45) = 128 * e) by (unfold e; change (-45)%Z with (7 + -52)%Z; rewrite p2_add; f_equal; unfold p2; simpl; lra).
  assert (E44 : p2 (-44) = 256 * e) by (unfold e; change (-44)%Z with (8 + -52)%Z; rewrite p2_add; f_equal; unfold p2; simpl; lra).
  assert (E47 : p2 (-47) = 32 * e) by (unfold e; change (-47)%Z with (5 + -52)%Z; rewrite p2_add; f_equal; unfold p2; simpl; lra).
  assert (E := e_small). assert (P91 : p2 90 <= p2 91) by (apply p2_le; lia).
  destruct adaptive.
  - destruct U' as [[U1 U2] U3]. assert (B1 : 1 <= b) by (assert (Q := pos_INR (count_zero ds)); lra).
    assert (NE : ds <> []) by (intros Z; rewrite Z in U3; cbn in U3; lia).
    destruct (bandwidth_close 3 b ds ds0 h REL NN NN0 B1 NE EH) as (h0 & A0 & RH).
    assert (LN' : INR (length ds) <= p2 53) by (rewrite LE, LP; exact LN).
    destruct (r_fixbw_val _ _ b64_rounding xb b _ ds Hb XV M (conj (conj U1 U2) U3) LN') as (x & hr & _ & _ & _ & AR).
    assert (QT : b < INR (length ds) -> binary64 (b / INR (length ds)) < 1) by (intros L; apply b64_quot; auto).
    destruct (bandwidth_rel _ _ b64_rounding b64_faithful b ds hr h M (conj (conj U1 U2) U3) LN' QT AR EH) as [_ RG].
    assert (M0' : moderate ds0).
    { eapply Forall_impl; [|exact M0]. intros a [->|Ha]; [auto|right]. assert (p2 (-50) <= p2 (-49)) by (apply p2_le; lia). assert (p2 49 <= p2 50) by (apply p2_le; lia). lra. }
    destruct (r_fixbw_val _ _ b64_rounding xb b (map XF ds0) ds0 Hb (xvals_map_XF _) M0' U ltac:(rewrite LP; exact LN)) as (x0 & hr0 & _ & _ & _ & AR0).
    assert (QT0 : b < INR (length ds0) -> binary64 (b / INR (length ds0)) < 1) by (rewrite <- LE; exact QT).
    destruct (bandwidth_rel _ _ b64_rounding b64_faithful b ds0 hr0 h0 M0' U ltac:(rewrite LP; exact LN) QT0 AR0 A0) as [_ RG0].
    exists h0, rs. split; [exact A0|]. split; [exact V|]. apply (FIN (102 * e)); [|rewrite E45, E44; lra].
    intros d d0 D R0 Md. apply (point_close k 3); auto; try lra. cbn [Nat.eqb]. lra.
  - subst h. exists b, rs. split; [reflexivity|]. split; [exact V|]. apply (FIN (51 * e)); [|rewrite E45, E47; lra].
    unfold usable_rounded in U. assert (p2 50 <= p2 91) by (apply p2_le; lia).
    intros d d0 D R0 Md. apply (point_close k 0); auto; try lra; [apply rel_refl|cbn [Nat.eqb]; lra].
Qed.

Lemma planar_ab : planar ta tb = 1 + 1 / 2 * u.
Proof.
  assert (Us := u_small). unfold planar. cbn [fst snd ta tb]. rewrite half_u. replace ((1 - - (u / 2)) ^ 2 + (0 - 0) ^ 2) with ((1 + 1 / 2 * u) * (1 + 1 / 2 * u)) by field. apply sqrt_square. lra.
Qed.
Lemma planar_ac : planar ta tc = 1 + 3 / 2 * u.
Proof.
  assert (Us := u_small). unfold planar. cbn [fst snd ta tc]. rewrite half_u. fold u. replace ((1 + u - - (u / 2)) ^ 2 + (0 - 0) ^ 2) with ((1 + 3 / 2 * u) * (1 + 3 / 2 * u)) by field. apply sqrt_square. lra.
Qed.
Lemma vector_case : Forall2 at_point [pair_XF tb; pair_XF tc] [tb; tc] /\ Forall placed [tb; tc] /\ Forall (separated ta) [tb; tc] /\
  Forall (fun p => planar ta p = 0 \/ p2 (-49) <= planar ta p <= p2 49) [tb; tc] /\
  usable_rounded true 2 (map (planar ta) [tb; tc]) /\ usable_rounded false 2 (map (planar ta) [tb; tc]) /\ is_double 2.
Proof.
  destruct ta_placed as (PA & PB & PC). destruct ta_sep as (SA & SB & SC). assert (Us := u_small).
  assert (A : p2 (-49) <= 1) by (rewrite <- p2_0; apply p2_le; lia). assert (A' : p2 (-50) <= 1) by (rewrite <- p2_0; apply p2_le; lia).
  assert (B : 2 <= p2 49) by (rewrite <- p2_1; apply p2_le; lia). assert (B' : 2 <= p2 50) by (rewrite <- p2_1; apply p2_le; lia). assert (B40 : 2 <= p2 40) by (rewrite <- p2_1; apply p2_le; lia).
  split; [repeat constructor|]. split; [auto|]. split; [auto|]. split; [|split; [|split]].
  - apply Forall_cons; [right; rewrite planar_ab; lra|]. apply Forall_cons; [right; rewrite planar_ac; lra|]. apply Forall_nil.
  - cbn [map]. rewrite planar_ab, planar_ac. unfold usable_rounded, count_zero. cbn [filter].
    destruct (Req_EM_T (1 + 1 / 2 * u) 0), (Req_EM_T (1 + 3 / 2 * u) 0); try lra. cbn [length INR]. split; [lra|lia].
  - unfold usable_rounded. lra.
  - unfold is_double. rewrite <- p2_1. apply b64_p2. lia.
Qed.

(** With the boxcar kernel a neighbour inside the bandwidth is lost. *)
Lemma boxcar_lost fe : exists b o p, is_double b /\ Forall (fun q => is_double (fst q) /\ is_double (snd q) /\ placed q) [o; p] /\ separated o p /\
  p2 (-49) <= planar o p <= p2 49 /\ usable_rounded false b [planar o p] /\
  planar o p < b /\ returns_values (r_weight_vector binary64 binary64_big fe Boxcar false (XF b) (pair_XF o) [pair_XF p]) [0].
Proof.
  destruct ta_placed as (PA & PB & PC). destruct ta_sep as (SA & SB & SC). destruct ta_double as (DA & DB & DC & D0). assert (Us := u_small).
  assert (PL := planar_ac).
  assert (A : p2 (-49) <= 1) by (rewrite <- p2_0; apply p2_le; lia). assert (A' : p2 (-50) <= 1) by (rewrite <- p2_0; apply p2_le; lia).
  assert (B : 2 <= p2 49) by (rewrite <- p2_1; apply p2_le; lia). assert (B' : 2 <= p2 50) by (rewrite <- p2_1; apply p2_le; lia).
  exists (1 + 2 * u), ta, tc. split; [apply (b64_whole 2); lia|]. split; [repeat apply Forall_cons; auto|]. split; [exact SC|]. rewrite PL. split; [lra|]. split; [unfold usable_rounded; lra|]. split; [lra|].
  unfold r_weight_vector, r_distances, r_weight. eexists. split; [reflexivity|]. cbn [map]. unfold xvals. cbn [map]. f_equal.
  unfold r_kernel, r_boxcar. assert (V := r_val _ _ b64_rounding _ _ ta tc (pair_at ta) (pair_at tc) PA PC). cbn [fst snd ta tc] in V. rewrite RD_ac in V.
  rewrite (xltb_val _ (XF (1 + 2 * u)) (1 + 2 * u) (1 + 2 * u) V eq_refl). rewrite (proj2 (Rltb_false _ _)) by lra. cbn [xofbool].
  rewrite (v_mul _ _ b64_rounding 0 (XF 0) (XF 1) 0 1); try lia; try reflexivity; rewrite Rmult_0_l; [rewrite b64_zero; reflexivity|]. unfold bnd. rewrite Rabs_R0. left. apply p2_pos.
Qed.
