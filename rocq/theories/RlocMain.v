(** Accuracy of local sums computed from coordinates. *)
From Coq Require Import Reals Bool List ZArith Arith Lra Lia Permutation.
From Verif Require Import Outcome XReal XRealFacts Sums KernelModel KernelSpec KernelProofs RoundModel RoundSpec RoundProofs RoundMain RoundAcc RoundAcc2 Binary64 RoundCases
  RdistModel RdistSpec RdistProofs RdistCases RdistW RgwssModel RgwssSpec RgwssProofs RgwssMain RnormModel RnormSpec RnormProofs RlocModel RlocSpec.
Import ListNotations.
Local Open Scope R_scope.

Notation fe64 := (fun x => binary64 (exp x)).

Lemma returns_inj o rs rs' : returns_values o rs -> returns_values o rs' -> rs = rs'.
Proof. intros (ws & E & V) (ws' & E' & V'). rewrite E in E'. inversion E'; subst. eapply xvals_inj; eauto. Qed.
Lemma xvals_at v l j : xvals v l -> (j < length l)%nat -> xval (at_ v j) = Some (nth j l 0).
Proof.
  unfold xvals, at_. revert l j. induction v as [|x v IH]; intros [|r l] j H L; cbn in *; try lia; try discriminate.
  injection H as H1 H2. destruct j as [|j]; [exact H1|]. apply IH; [exact H2|lia].
Qed.
Lemma xvals_len v l : xvals v l -> length v = length l.
Proof. intros H. apply (f_equal (@length _)) in H. rewrite !map_length in H. exact H. Qed.

Section S.
Variables (k : kernel) (adaptive : bool) (xb : xd) (b : R) (xo : xd * xd) (xps : list (xd * xd)) (o : R * R) (ps : list (R * R)).
Hypothesis Hb : xval xb = Some b.
Hypothesis XO : at_point xo o.
Hypothesis XP : Forall2 at_point xps ps.
Hypothesis SI : sited adaptive b o ps.
Hypothesis NB : k <> Boxcar.
Let n := length ps.

Lemma weights_unit rs : returns_values (r_weight_vector binary64 binary64_big fe64 k adaptive xb xo xps) rs -> Forall (fun w => 0 <= w <= 1) rs.
Proof.
  destruct SI as (PO & PP & SP & MP & U & DB & LN). intros RV.
  set (ds0 := map (planar o) ps). set (ds := map (fun p => RD binary64 (fst p - fst o) (snd p - snd o)) ps).
  assert (M0 : moderate_half ds0) by (unfold moderate_half, ds0; rewrite Forall_map; exact MP).
  assert (REL : Forall2 (rel 3) ds ds0).
  { unfold ds, ds0. clear -SP. induction SP; cbn; constructor; auto. apply (sep_rel _ _ b64_rounding b64_faithful b64_odd). auto. }
  assert (NN : nonneg ds) by (unfold ds, nonneg; rewrite Forall_map; apply Forall_forall; intros; apply (RD_nonneg _ _ b64_rounding)).
  assert (M := moderate_rel ds ds0 NN REL M0).
  assert (XV : xvals (r_distances binary64 binary64_big xo xps) ds).
  { unfold xvals, r_distances, ds. clear -XP PP PO XO. induction XP as [|x p xps ps H XP' IH]; [reflexivity|]. inversion PP; subst. cbn. f_equal; auto.
    apply (r_val _ _ b64_rounding); auto. }
  assert (LE : length ds = length ds0) by (unfold ds, ds0; rewrite !map_length; reflexivity).
  assert (LP : length ds0 = length ps) by (unfold ds0; apply map_length).
  assert (CZ := count_zero_rel 3 ds ds0 REL).
  assert (U' : usable_rounded adaptive b ds) by (unfold usable_rounded in *; fold ds0 in U; rewrite CZ, LE; exact U).
  assert (L53 : INR (length ds) <= p2 53) by (rewrite LE, LP; apply Rle_trans with (p2 40); [exact LN|apply p2_le; lia]).
  destruct (r_weight_main _ _ _ b64_rounding exp64_ok k adaptive xb b _ ds Hb XV M U' L53) as (h & rs' & _ & RV' & _ & UN & _).
  rewrite (returns_inj _ _ _ RV RV'). exact UN.
Qed.

(** The weights with the location left out. *)
Definition keep (leave : option nat) (j : nat) : R := match leave with Some i => if Nat.eqb j i then 0 else 1 | None => 1 end.
Definition drop (leave : option nat) (rs : list R) : list R := match leave with Some i => firstn i rs ++ 0 :: skipn (S i) rs | None => rs end.
Lemma drop_length leave (rs : list R) : (forall i, leave = Some i -> (i < length rs)%nat) -> length (drop leave rs) = length rs.
Proof.
  destruct leave as [i|]; intros H; [|reflexivity]. specialize (H i eq_refl). unfold drop. rewrite app_length, firstn_length. cbn [length]. rewrite skipn_length. lia.
Qed.
Lemma drop_nth leave rs j : (forall i, leave = Some i -> (i < length rs)%nat) -> nth j (drop leave rs) 0 = keep leave j * nth j rs 0.
Proof.
  destruct leave as [i|]; intros H; cbn [drop keep]; [|lra]. specialize (H i eq_refl).
  assert (L : length (firstn i rs) = i) by (rewrite firstn_length; lia).
  destruct (Nat.eqb_spec j i) as [->|N].
  - rewrite app_nth2, L, Nat.sub_diag by lia. cbn. lra.
  - destruct (Nat.lt_ge_cases j i) as [J|J].
    + rewrite app_nth1 by lia. rewrite Rmult_1_l. clear -J. revert i rs J. induction j as [|j IH]; intros [|i] [|r rs] J; cbn; try lia; auto. apply IH. lia.
    + rewrite app_nth2, L by lia. destruct (j - i)%nat as [|m] eqn:E; [lia|]. cbn [nth]. rewrite Rmult_1_l. replace j with (S i + m)%nat by lia.
      clear. generalize (S i) as q. intros q. revert rs. induction q as [|q IH]; intros [|r rs]; cbn; auto. now destruct m.
Qed.
Lemma xvals_drop leave ws rs : xvals ws rs -> (forall i, leave = Some i -> (i < length rs)%nat) ->
  exists us, match leave with None => Ok ws | Some i => if Nat.ltb i (length ws) then Ok (firstn i ws ++ XF 0 :: skipn (S i) ws) else Throw end = Ok us /\ xvals us (drop leave rs).
Proof.
  intros V H. destruct leave as [i|]; [|exists ws; auto]. specialize (H i eq_refl). rewrite (xvals_len _ _ V), (proj2 (Nat.ltb_lt _ _)) by exact H.
  eexists. split; [reflexivity|]. unfold xvals in *. cbn [drop]. rewrite !map_app. cbn [map]. rewrite <- !firstn_map, <- !skipn_map, V. reflexivity.
Qed.

(** All that is needed of the weights. *)
Lemma weights_all : exists h rs, bandwidth_at adaptive b o ps h /\ length rs = n /\
  (forall leave, (forall i, leave = Some i -> (i < n)%nat) -> exists us, r_weights_at binary64 binary64_big fe64 k adaptive xb xo xps leave = Ok us /\ xvals us (drop leave rs)) /\
  (forall j, (j < n)%nat -> 0 <= nth j rs 0 <= 1) /\ (forall j, (j < n)%nat -> Rabs (nth j rs 0 - K k (planar o (nth j ps o)) h) <= p2 (-44)).
Proof.
  destruct SI as (PO & PP & SP & MP & U & DB & LN).
  assert (L53 : INR (length ps) <= p2 53) by (apply Rle_trans with (p2 40); [exact LN|apply p2_le; lia]).
  destruct (vector_main k adaptive xb b xo xps o ps Hb XO XP PO PP SP MP U L53 DB NB) as (h & rs & BW & RV & F).
  assert (LR : length rs = n) by (clear -F; unfold n; induction F; cbn; auto).
  exists h, rs. split; [exact BW|]. split; [exact LR|]. split.
  { intros leave LV. destruct RV as (ws & E & V). unfold r_weights_at. rewrite E. cbn [obind]. rewrite <- LR in LV. exact (xvals_drop leave ws rs V LV). }
  assert (UN := weights_unit rs RV). split.
  - intros j J. rewrite Forall_forall in UN. apply UN, nth_In. rewrite LR. exact J.
  - intros j J. assert (Q : p2 (if adaptive then -44 else -45) <= p2 (-44)) by (destruct adaptive; [lra|apply p2_le; lia]).
    clear -F J Q. unfold n in J. revert j J. induction F as [|p w ps rs H F IH]; intros [|j] J; cbn in *; try lia; [lra|]. apply IH. lia.
Qed.

Lemma sum_bound h rs leave x y : (forall i, leave = Some i -> (i < n)%nat) -> length rs = n -> length x = n ->
  (forall j, (j < n)%nat -> 0 <= nth j rs 0 <= 1) -> (forall j, (j < n)%nat -> Rabs (nth j rs 0 - K k (planar o (nth j ps o)) h) <= p2 (-44)) ->
  let w := fun j => nth j (drop leave rs) 0 in let a := fun j => nth j x 0 in let c := fun j => nth j y 0 in
  (forall j, (j < n)%nat -> 0 <= w j <= 1) /\ size_of n w a c <= magnitude x y /\ Rabs (cross_of n w a c - local_sum (K k) h leave o ps x y) <= p2 (-44) * magnitude x y.
Proof.
  intros LV LR LX UN CL w a c. assert (KE : forall j, 0 <= keep leave j <= 1) by (intros j; destruct leave as [i|]; cbn; [destruct (Nat.eqb j i)|]; lra).
  assert (W : forall j, w j = keep leave j * nth j rs 0) by (intros j; apply drop_nth; rewrite LR; exact LV).
  assert (P := p2_pos (-44)).
  assert (W01 : forall j, (j < n)%nat -> 0 <= w j <= 1) by (intros j J; rewrite W; specialize (UN j J); specialize (KE j); split; nra).
  split; [exact W01|]. unfold size_of, magnitude, cross_of, local_sum. rewrite LX. fold n. split.
  - apply bs_le. intros j J. specialize (W01 j J). rewrite Rmult_assoc, Rabs_mult, (Rabs_right (w j)) by lra. fold (a j) (c j). assert (Q := Rabs_pos (a j * c j)). nra.
  - rewrite bs_minus, <- bs_scal. eapply Rle_trans; [apply bs_abs|]. apply bs_le. intros j J. fold (keep leave j). fold (a j) (c j). rewrite W.
    replace (keep leave j * nth j rs 0 * a j * c j - keep leave j * K k (planar o (nth j ps o)) h * a j * c j)
      with (keep leave j * ((nth j rs 0 - K k (planar o (nth j ps o)) h) * (a j * c j))) by ring.
    rewrite !Rabs_mult. specialize (KE j). rewrite (Rabs_right (keep leave j)) by lra. specialize (CL j J).
    assert (Q : 0 <= Rabs (a j) * Rabs (c j)) by (apply Rmult_le_pos; apply Rabs_pos). assert (Q' := Rabs_pos (nth j rs 0 - K k (planar o (nth j ps o)) h)).
    assert (Z : Rabs (nth j rs 0 - K k (planar o (nth j ps o)) h) * (Rabs (a j) * Rabs (c j)) <= p2 (-44) * (Rabs (a j) * Rabs (c j))) by (apply Rmult_le_compat_r; assumption).
    assert (0 <= Rabs (nth j rs 0 - K k (planar o (nth j ps o)) h) * (Rabs (a j) * Rabs (c j))) by (apply Rmult_le_pos; assumption). nra.
Qed.

Lemma sums_all : exists h, bandwidth_at adaptive b o ps h /\ forall leave t xx xy x y,
  (forall i, leave = Some i -> (i < n)%nat) -> column (p2 400) n xx x -> column (p2 400) n xy y -> adds n t ->
  exists s v, r_local binary64 binary64_big fe64 k adaptive xb xo xps leave t xx xy = Ok s /\ xval s = Some v /\
  Rabs (v - local_sum (K k) h leave o ps x y) <= slack n (magnitude x y) /\ Rabs v <= magnitude x y + slack n (magnitude x y).
Proof.
  destruct weights_all as (h & rs & BW & LR & RW & UN & CL). exists h. split; [exact BW|].
  intros leave t xx xy x y LV (VX & LX & BX) (VY & LY & BY) T. destruct (RW leave LV) as (us & EU & VU).
  unfold r_local. rewrite EU. cbn [obind]. rewrite (xvals_len _ _ VU), (xvals_len _ _ VX), (xvals_len _ _ VY), drop_length, LR, LX, LY, Nat.eqb_refl by (rewrite LR; exact LV). cbn [andb].
  destruct (sum_bound h rs leave x y LV LR LX UN CL) as (W01 & SZ & CR).
  destruct (cross_main binary64 binary64_big b64_rounding b64_faithful n (fun j => nth j (drop leave rs) 0) (fun j => nth j x 0) (fun j => nth j y 0) (at_ us) (at_ xx) (at_ xy) t) as [(v & V & B) _]; auto.
  - split; [exact W01|]. apply SI.
  - intros j J. rewrite Forall_forall in BX. apply BX, nth_In. lia.
  - intros j J. rewrite Forall_forall in BY. apply BY, nth_In. lia.
  - intros j J. apply xvals_at; [exact VU|]. rewrite drop_length; rewrite LR; auto.
  - intros j J. apply xvals_at; [exact VX|lia].
  - intros j J. apply xvals_at; [exact VY|lia].
  - eexists. exists v. split; [reflexivity|]. split; [exact V|]. unfold slack.
    set (C := cross_of n _ _ _) in *. set (L := local_sum _ _ _ _ _ _ _) in *. set (S := size_of n _ _ _) in *. set (A := magnitude x y) in *.
    assert (P := p2_pos (-49)). assert (P4 := p2_pos (-44)). assert (N := pos_INR n). assert (Z : INR n * (p2 (-49) * S) <= INR n * (p2 (-49) * A)) by (apply Rmult_le_compat_l; [exact N|apply Rmult_le_compat_l; lra]).
    split.
    + replace (v - L) with ((v - C) + (C - L)) by ring. eapply Rle_trans; [apply Rabs_triang|]. lra.
    + assert (CS : Rabs C <= S) by (unfold C, S, cross_of, size_of; apply bs_abs). assert (A0 : 0 <= p2 (-44) * A) by (apply Rmult_le_pos; [lra|]; assert (Q := Rabs_pos C); lra).
      replace v with (C + (v - C)) by ring. eapply Rle_trans; [apply Rabs_triang|]. lra.
Qed.
End S.

Lemma entry_main k adaptive xb b xo xps o ps leave t xx xy x y :
  xval xb = Some b -> at_point xo o -> Forall2 at_point xps ps -> sited adaptive b o ps -> k <> Boxcar ->
  (forall i, leave = Some i -> (i < length ps)%nat) -> column (p2 400) (length ps) xx x -> column (p2 400) (length ps) xy y -> adds (length ps) t ->
  exists h s v, bandwidth_at adaptive b o ps h /\ r_local binary64 binary64_big fe64 k adaptive xb xo xps leave t xx xy = Ok s /\ xval s = Some v /\
  Rabs (v - local_sum (K k) h leave o ps x y) <= slack (length ps) (magnitude x y).
Proof.
  intros Hb XO XP SI NB LV CX CY T. destruct (sums_all k adaptive xb b xo xps o ps Hb XO XP SI NB) as (h & BW & H).
  destruct (H leave t xx xy x y LV CX CY T) as (s & v & Q). exists h, s, v. tauto.
Qed.

(** The quotient. *)
Lemma mag_bound n x y M : 0 <= M -> length x = n -> length y = n -> Forall (fun r => Rabs r <= M) x -> Forall (fun r => Rabs r <= M) y -> magnitude x y <= INR n * (M * M).
Proof.
  intros HM LX LY BX BY. unfold magnitude. rewrite LX. apply Rle_trans with (bigsum n (fun _ => 0 * 0 + M * M)).
  - apply bs_le. intros j J. rewrite Rabs_mult. rewrite Forall_forall in BX, BY. assert (A := BX (nth j x 0) ltac:(apply nth_In; lia)). assert (B := BY (nth j y 0) ltac:(apply nth_In; lia)).
    assert (Rabs (nth j x 0) * Rabs (nth j y 0) <= M * M) by (apply Rmult_le_compat; auto using Rabs_pos). lra.
  - rewrite (bs_lin n 0 (M * M) (fun _ => 0)). lra.
Qed.
Lemma column_weaken M M' n v l : M <= M' -> column M n v l -> column M' n v l.
Proof. intros L (A & B & C). split; [exact A|]. split; [exact B|]. eapply Forall_impl; [|exact C]. intros; cbn in *; lra. Qed.

Section Q.
Variables (s t S T Es Et i v : R).
Hypothesis Ds : Rabs (s - S) <= Es.
Hypothesis Dt : Rabs (t - T) <= Et.
Hypothesis S0 : 0 < S.
Hypothesis ES : 2 * Es <= S.
Hypothesis Di : Rabs (i - / s) <= p2 (-50) * / s.
Hypothesis Dv : Rabs (v - i * t) <= p2 (-52) * Rabs (i * t) + p2 (-999).
Lemma quotient_close : Rabs (v - T / S) <= p2 (-49) * Rabs (T / S) + 3 * (Et + Rabs (T / S) * Es) / S + p2 (-999).
Proof.
  set (be := T / S). assert (TE : T = be * S) by (unfold be; field; lra).
  assert (Es0 : 0 <= Es) by (eapply Rle_trans; [apply Rabs_pos|exact Ds]). assert (Et0 : 0 <= Et) by (eapply Rle_trans; [apply Rabs_pos|exact Dt]).
  assert (SL : S / 2 <= s) by (unfold Rabs in Ds; destruct (Rcase_abs (s - S)); lra). assert (s0 : 0 < s) by lra.
  assert (is0 := Rinv_0_lt_compat s s0). assert (iS0 := Rinv_0_lt_compat S S0).
  assert (IS : / s <= 2 * / S). { replace (2 * / S) with (/ (S / 2)) by (field; lra). apply Rinv_le_contravar; lra. }
  set (G := (Et + Rabs be * Es) * / S). assert (N0 : 0 <= Et + Rabs be * Es) by (assert (0 <= Rabs be * Es) by (apply Rmult_le_pos; [apply Rabs_pos|lra]); lra).
  assert (G0 : 0 <= G) by (apply Rmult_le_pos; lra).
  assert (Q1 : Rabs (t * / s - be) <= 2 * G).
  { replace (t * / s - be) with (((t - T) - be * (s - S)) * / s) by (rewrite TE; field; lra). rewrite Rabs_mult, (Rabs_right (/ s)) by lra.
    apply Rle_trans with ((Et + Rabs be * Es) * / s).
    - apply Rmult_le_compat_r; [lra|]. unfold Rminus at 1. eapply Rle_trans; [apply Rabs_triang|]. rewrite Rabs_Ropp, Rabs_mult.
      assert (Rabs be * Rabs (s - S) <= Rabs be * Es) by (apply Rmult_le_compat_l; [apply Rabs_pos|exact Ds]). lra.
    - unfold G. replace (2 * ((Et + Rabs be * Es) * / S)) with ((Et + Rabs be * Es) * (2 * / S)) by ring. apply Rmult_le_compat_l; assumption. }
  set (q := t * / s) in *. assert (QA := Rabs_pos q).
  assert (Q2 : Rabs (i * t - q) <= p2 (-50) * Rabs q).
  { replace (i * t - q) with ((i - / s) * t) by (unfold q; ring). unfold q. rewrite !Rabs_mult, (Rabs_right (/ s)) by lra.
    apply Rle_trans with (p2 (-50) * / s * Rabs t); [apply Rmult_le_compat_r; [apply Rabs_pos|exact Di]|lra]. }
  assert (E1 : p2 (-49) = 2 * p2 (-50)) by (rewrite (p2_half (-49)); reflexivity). assert (E2 : p2 (-50) = 4 * p2 (-52)) by (rewrite (p2_half (-50)), (p2_half (-50 - 1)); change (-50 - 1 - 1)%Z with (-52)%Z; ring).
  assert (SM : 0 < p2 (-52) <= / 1024) by exact u_small. set (e' := p2 (-52)) in *.
  assert (Q3 : Rabs (i * t) <= (1 + 4 * e') * Rabs q).
  { replace (i * t) with (q + (i * t - q)) by ring. eapply Rle_trans; [apply Rabs_triang|]. rewrite E2 in Q2. lra. }
  assert (Q4 : Rabs q <= Rabs be + 2 * G). { replace q with (be + (q - be)) by ring. eapply Rle_trans; [apply Rabs_triang|]. lra. }
  assert (Q5 : Rabs (v - q) <= 8 * e' * Rabs q + p2 (-999)).
  { replace (v - q) with ((v - i * t) + (i * t - q)) by ring. eapply Rle_trans; [apply Rabs_triang|]. rewrite E2 in Q2.
    assert (e' * Rabs (i * t) <= e' * ((1 + 4 * e') * Rabs q)) by (apply Rmult_le_compat_l; lra).
    assert (e' * ((1 + 4 * e') * Rabs q) <= e' * (2 * Rabs q)) by (apply Rmult_le_compat_l; [lra|]; apply Rmult_le_compat_r; lra). 
    assert (0 <= e' * Rabs q) by (apply Rmult_le_pos; lra). lra. }
  replace (3 * (Et + Rabs be * Es) / S) with (3 * G) by (unfold G; field; lra). rewrite E1, E2.
  replace (v - be) with ((v - q) + (q - be)) by ring. eapply Rle_trans; [apply Rabs_triang|].
  assert (8 * e' * Rabs q <= 8 * e' * (Rabs be + 2 * G)) by (apply Rmult_le_compat_l; lra).
  assert (16 * e' * G <= 1 * G) by (apply Rmult_le_compat_r; lra). lra.
Qed.
End Q.

Lemma slope_main k adaptive xb b xo xps o ps inv1 tx ty xx xy x y :
  xval xb = Some b -> at_point xo o -> Forall2 at_point xps ps -> sited adaptive b o ps -> k <> Boxcar -> inverts inv1 ->
  column (p2 200) (length ps) xx x -> column (p2 200) (length ps) xy y -> adds (length ps) tx -> adds (length ps) ty ->
  exists h, bandwidth_at adaptive b o ps h /\
  let S := local_sum (K k) h None o ps x x in let T := local_sum (K k) h None o ps x y in
  let Es := slack (length ps) (magnitude x x) in let Et := slack (length ps) (magnitude x y) in
  (p2 (-300) <= S -> 2 * Es <= S ->
   exists s v, r_slope binary64 binary64_big fe64 k adaptive xb xo xps inv1 tx ty xx xy = Ok s /\ xval s = Some v /\
   Rabs (v - T / S) <= p2 (-49) * Rabs (T / S) + 3 * (Et + Rabs (T / S) * Es) / S + p2 (-999)).
Proof.
  intros Hb XO XP SI NB IV CX CY TX TY. destruct (sums_all k adaptive xb b xo xps o ps Hb XO XP SI NB) as (h & BW & H). exists h. split; [exact BW|]. cbv zeta. intros S1 S2.
  assert (L24 : p2 200 <= p2 400) by (apply p2_le; lia). assert (CX' := column_weaken _ _ _ _ _ L24 CX). assert (CY' := column_weaken _ _ _ _ _ L24 CY).
  destruct (H None tx xx xx x x ltac:(discriminate) CX' CX' TX) as (s & sv & Es & Vs & Bs & Us). destruct (H None ty xx xy x y ltac:(discriminate) CX' CY' TY) as (c & cv & Ec & Vc & Bc & Uc).
  set (n := length ps) in *. destruct SI as (_ & _ & _ & _ & _ & _ & LN). fold n in LN.
  destruct CX as (_ & LX & BX). destruct CY as (_ & LY & BY).
  assert (P200 := p2_pos 200). assert (MX := mag_bound n x x (p2 200) ltac:(lra) LX LX BX BX). assert (MY := mag_bound n x y (p2 200) ltac:(lra) LX LY BX BY).
  rewrite <- p2_add in MX, MY. change (200 + 200)%Z with 400%Z in *.
  assert (NP := pos_INR n). assert (P400 := p2_pos 400).
  assert (M440 : INR n * p2 400 <= p2 440) by (change 440%Z with (40 + 400)%Z; rewrite (p2_add 40 400); apply Rmult_le_compat_r; lra).
  assert (SLK : forall A, 0 <= A -> A <= p2 440 -> slack n A <= p2 441).
  { intros A A0 HA. unfold slack. assert (A1 : INR n * p2 (-49) <= / 4). 
    { apply Rle_trans with (p2 40 * p2 (-49)); [apply Rmult_le_compat_r; [left; apply p2_pos|exact LN]|]. rewrite <- p2_add. apply Rle_trans with (p2 (-2)); [apply p2_le; lia|unfold p2; simpl; lra]. }
    assert (A2 : p2 (-44) <= / 4) by (apply Rle_trans with (p2 (-2)); [apply p2_le; lia|unfold p2; simpl; lra]).
    assert (A3 : INR n * p2 (-590) <= p2 440).
    { apply Rle_trans with (p2 40 * p2 (-590)); [apply Rmult_le_compat_r; [left; apply p2_pos|exact LN]|]. rewrite <- p2_add. apply p2_le. lia. }
    assert (A4 : (INR n * p2 (-49) + p2 (-44)) * A <= / 2 * A) by (apply Rmult_le_compat_r; lra). assert (H41 := p2_half 441). change (441 - 1)%Z with 440%Z in H41. assert (P440 := p2_pos 440). lra. }
  assert (MX0 : 0 <= magnitude x x) by (unfold magnitude; rewrite <- lsumf_seq; apply lsumf_nonneg; intros; apply Rabs_pos).
  assert (MY0 : 0 <= magnitude x y) by (unfold magnitude; rewrite <- lsumf_seq; apply lsumf_nonneg; intros; apply Rabs_pos).
  assert (H42 := p2_half 442). change (442 - 1)%Z with 441%Z in H42. assert (H41 := p2_half 441). change (441 - 1)%Z with 440%Z in H41. assert (P440 := p2_pos 440).
  assert (US : Rabs sv <= p2 442) by (assert (Q := SLK (magnitude x x) MX0 ltac:(lra)); lra).
  assert (UC : Rabs cv <= p2 442) by (assert (Q := SLK (magnitude x y) MY0 ltac:(lra)); lra).
  set (SS := local_sum (K k) h None o ps x x) in *. set (TT := local_sum (K k) h None o ps x y) in *.
  assert (P300 := p2_pos (-300)). assert (H30 := p2_half (-300)). change (-300 - 1)%Z with (-301)%Z in H30.
  assert (LS : p2 (-301) <= sv) by (unfold Rabs in Bs; destruct (Rcase_abs (sv - SS)); lra). assert (P301 := p2_pos (-301)).
  destruct (IV s sv Vs) as (i & q & Ei & Vi & Bi).
  { split; [apply Rle_trans with (p2 (-301)); [apply p2_le; lia|exact LS]|]. apply Rle_trans with (p2 442); [rewrite Rabs_right in US by lra; exact US|apply p2_le; lia]. }
  assert (IS : 0 < / sv) by (apply Rinv_0_lt_compat; lra).
  assert (IU : / sv <= p2 301). { apply Rle_trans with (/ p2 (-301)); [apply Rinv_le_contravar; lra|]. right. change 301%Z with (0 - -301)%Z. rewrite p2_sub, p2_0. unfold Rdiv. ring. }
  assert (P50 : p2 (-50) <= 1) by (rewrite <- p2_0; apply p2_le; lia). assert (P50' := p2_pos (-50)).
  assert (QU : Rabs q <= p2 302).
  { replace q with (/ sv + (q - / sv)) by ring. eapply Rle_trans; [apply Rabs_triang|]. rewrite (Rabs_right (/ sv)) by lra. assert (H31 := p2_half 302). change (302 - 1)%Z with 301%Z in H31. nra. }
  assert (PB : bnd 744 (q * cv)).
  { unfold bnd. rewrite Rabs_mult. change 744%Z with (302 + 442)%Z. rewrite p2_add. apply Rmult_le_compat; auto using Rabs_pos. }
  unfold r_slope. rewrite Es, Ec. cbn [obind]. rewrite Ei. cbn [obind]. eexists. exists (binary64 (q * cv)). split; [reflexivity|].
  split; [apply (v_mul _ _ b64_rounding 744); auto; lia|].
  apply (quotient_close sv cv SS TT (slack n (magnitude x x)) (slack n (magnitude x y)) q); auto; try lra. apply (rn_err binary64 binary64_big b64_rounding b64_faithful).
Qed.
