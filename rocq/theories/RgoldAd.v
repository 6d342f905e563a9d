(** The golden-section search with rounding: adaptive bandwidths, the best evaluated bandwidth, narrow ranges. *)
From Coq Require Import Reals ZArith Bool List Lra Lia Arith.
From Verif Require Import XReal XRealFacts KernelModel GoldModel GoldSpec GoldProofs GoldProofs2 RoundModel RoundSpec RoundProofs RoundAcc RgwssProofs RgoldModel RgoldSpec RgoldProofs RgoldMain.
Import ListNotations.
Local Open Scope R_scope.

Section P.
Variables (rn : R -> R) (big : R).
Notation rg := (r_golden rn).
Notation r_first := (r_first rn).
Notation r_second := (r_second rn).
Notation r_init := (r_init rn).
Notation r_guard := (r_guard rn big).
Notation r_step := (r_step rn).
Notation r_optimize := (r_optimize rn big).
Notation r_reaches := (r_reaches rn big).

(** ** The best evaluated bandwidth. *)
Lemma rinv21_step crit w st st' : no_nan crit -> inv21 w st -> r_step crit w st = Some st' -> inv21 w st'.
Proof.
  intros N (F1 & F2 & I1 & I2 & X & B) S. unfold RgoldModel.r_step in S.
  destruct (xltb (f1 st) (f2 st)) eqn:E.
  - destruct (crit (calls st) _) as [ok v|] eqn:C; [|discriminate]. inversion S; subst; clear S.
    pose proof (N _ _ _ _ C) as V. unfold inv21; cbn [f1 f2 x1 x2 elog xopt].
    split; [auto|]. split; [auto|]. split; [left; reflexivity|]. split; [right; exact I1|].
    split; [reflexivity|].
    refine (proj1 (best_step (f1 st) (f2 st) v (elog st) _ _ F1 F2 V) E). rewrite E. exact B.
  - destruct (crit (calls st) _) as [ok v|] eqn:C; [|discriminate]. inversion S; subst; clear S.
    pose proof (N _ _ _ _ C) as V. unfold inv21; cbn [f1 f2 x1 x2 elog xopt].
    split; [auto|]. split; [auto|]. split; [right; exact I2|]. split; [left; reflexivity|].
    split; [reflexivity|].
    refine (proj2 (best_step (f1 st) (f2 st) v (elog st) _ _ F1 F2 V) E). rewrite E. exact B.
Qed.
Lemma rinv21_init crit w lo up m v1 v2 ok1 ok2 : no_nan crit ->
  crit 0%nat (r_first w lo up) = Answer ok1 v1 -> crit 1%nat (r_second w lo up) = Answer ok2 v2 -> inv21 w (r_init w lo up m v1 v2).
Proof.
  intros N A B. pose proof (N _ _ _ _ A) as V1. pose proof (N _ _ _ _ B) as V2.
  unfold inv21, RgoldModel.r_init; cbn [f1 f2 x1 x2 elog xopt]. split; [auto|]. split; [auto|]. split; [right; left; reflexivity|].
  split; [left; reflexivity|]. split; [reflexivity|].
  destruct (xltb v1 v2) eqn:K; intros w' v' [I|[I|[]]]; inversion I; subst.
  - apply lt_ng; auto.
  - apply ng_refl; auto.
  - apply ng_refl; auto.
  - apply nlt_ng; auto.
Qed.
Lemma best_main : forall crit w lo up m wr, no_nan crit -> rresult (r_optimize crit w lo up m) = Fresh wr ->
  exists v, evaluated (r_optimize crit w lo up m) wr v /\ forall w' v', evaluated (r_optimize crit w lo up m) w' v' -> not_greater v v'.
Proof.
  intros crit w lo up m wr N.
  destruct (r_cases rn big crit w lo up m) as [H|ok1 v1 H1 H2|ok1 v1 ok2 v2 H1 H2 H3|v1 v2 H1 H2|v1 v2 st H1 H2 P G S|v1 v2 st H1 H2 P G S|v1 v2 st H1 H2 P G S];
    cbn [rresult]; try discriminate.
  intros E; injection E as <-.
  assert (I : inv21 w st).
  { eapply rpasses_inv; [|exact P|eapply rinv21_init; eauto]. intros; eapply rinv21_step; eauto. }
  destruct I as (F1 & F2 & I1 & I2 & X & Bst).
  exists (if xltb (f1 st) (f2 st) then f1 st else f2 st). rewrite X. unfold better, evaluated; cbn [rlog].
  split; [destruct (xltb (f1 st) (f2 st)); auto | intros w' v' I; eapply Bst; eauto].
Qed.

Hypothesis RN : rounding rn big.
Hypothesis FA : faithful rn.
(** ** Adaptive bandwidths. *)
Definition qe (k : nat) : R := 1.001 * INR k.
Lemma qe_S k : qe (S k) = qe k + 1.001.
Proof. unfold qe. rewrite S_INR. ring. Qed.
Lemma qe_bound k : (k <= 101)%nat -> 0 <= qe k <= 102.
Proof. intros H. apply le_INR in H. replace (INR 101) with 101 in H by (cbn; lra). pose proof (pos_INR k). unfold qe. split; lra. Qed.
Definition near24 (lo up : R) (st : vars) : Prop := exists eL eU, lo <= eL /\ eL <= eU /\ eU <= up /\ Rabs (dd st - golden * (eU - eL)) <= 11 * u /\
  Rabs (xL st - eL) <= qe (iter st) /\ Rabs (xU st - eU) <= qe (iter st) /\
  Rabs (x1 st - (eL + golden * (eU - eL))) <= qe (S (iter st)) /\ Rabs (x2 st - (eU - golden * (eU - eL))) <= qe (S (iter st)).
Definition rinv24 (lo up : R) (st : vars) : Prop := (iter st <= 100)%nat /\ (calls st = iter st + 2)%nat /\ near24 lo up st /\
  (forall w' v, In (w', v) (elog st) -> integer (wvalue w') /\ lo - qe (S (iter st)) <= wvalue w' <= up + qe (S (iter st))).
Lemma rinv24_step crit w lo up st st' : range24 lo up -> wadaptive w = true -> rinv24 lo up st -> r_guard st = true -> r_step crit w st = Some st' -> rinv24 lo up st'.
Proof.
  intros (R1 & R2 & R3) W (I1 & IC & (eL & eU & A1 & A2 & A3 & A4 & A5 & A6 & A7 & A8) & L) G ST.
  pose proof (guard_iter rn big st G) as K. pose proof golden_bounds as GB. pose proof golden_sq as GS. pose proof p2_24 as P24. pose proof p2_25 as P25. pose proof u_val as UV. pose proof eta_u as EU.
  assert (W0 : 0 <= eU - eL <= p2 25) by (rewrite P24, P25 in *; lra). pose proof (shrink rn big RN FA (dd st) (eU - eL) A4 W0) as SH.
  pose proof (qe_bound (iter st) ltac:(lia)) as Q0. pose proof (qe_bound (S (iter st)) ltac:(lia)) as Q1. pose proof (qe_S (iter st)) as Q2. pose proof (qe_S (S (iter st))) as Q3.
  set (D := golden * (eU - eL)) in *. set (d' := rn (rg * dd st)) in *. assert (D0 : 0.618 * (eU - eL) <= D <= 0.6181 * (eU - eL)) by (unfold D; split; nra).
  assert (DG : golden * D = (eU - eL) - D) by (unfold D; rewrite <- Rmult_assoc, GS; ring).
  assert (SH' := SH). apply Rabs_le_inv in SH'. pose proof A7 as A7'. apply Rabs_le_inv in A7'. pose proof A8 as A8'. apply Rabs_le_inv in A8'. rewrite UV in SH', EU.
  unfold RgoldModel.r_step in ST. rewrite W in ST. fold d' in ST.
  destruct (xltb (f1 st) (f2 st)); destruct (crit (calls st) _) as [ok v|]; inversion ST; subst st'; clear ST.
  - set (x := rn (x2 st + d')) in *. assert (RA : Rabs (x2 st + d') <= p2 25) by (apply Rabs_le; rewrite P24, P25 in *; lra).
    pose proof (near_sum rn big RN FA (x2 st) d' (eU - D) (golden * D) _ _ A8 SH RA) as NS. fold x in NS. apply Rabs_le_inv in NS. rewrite UV in NS.
    pose proof (rround_bounds x) as RB. pose proof (rround_int x) as RI.
    split; [cbn [iter]; lia|]. split; [cbn [calls iter]; lia|]. split.
    + exists (eU - D), eU. cbn [xL xU dd x1 x2 iter elog]. replace (eU - (eU - D)) with D by ring.
      split; [lra|]. split; [lra|]. split; [lra|]. split; [exact SH|]. split; [exact A8|]. apply Rabs_le_inv in A6.
      split; [apply Rabs_le; lra|]. split; [apply Rabs_le; lra|]. apply Rabs_le. lra.
    + cbn [elog iter]. intros w' v' [J|J]; [inversion J; subst; cbn [wvalue]; split; [exact RI|lra]|destruct (L _ _ J); split; [assumption|lra]].
  - set (x := rn (x1 st - d')) in *. assert (RA : Rabs (x1 st - d') <= p2 25) by (apply Rabs_le; rewrite P24, P25 in *; lra).
    pose proof (near_diff rn big RN FA (x1 st) d' (eL + D) (golden * D) _ _ A7 SH RA) as NS. fold x in NS. apply Rabs_le_inv in NS. rewrite UV in NS.
    pose proof (rfloor_bounds x) as RB. pose proof (rfloor_int x) as RI.
    split; [cbn [iter]; lia|]. split; [cbn [calls iter]; lia|]. split.
    + exists eL, (eL + D). cbn [xL xU dd x1 x2 iter elog]. replace (eL + D - eL) with D by ring.
      split; [lra|]. split; [lra|]. split; [lra|]. split; [exact SH|]. apply Rabs_le_inv in A5. split; [apply Rabs_le; lra|]. split; [exact A7|].
      split; [apply Rabs_le; lra|]. apply Rabs_le. lra.
    + cbn [elog iter]. intros w' v' [J|J]; [inversion J; subst; cbn [wvalue]; split; [exact RI|lra]|destruct (L _ _ J); split; [assumption|lra]].
Qed.
Lemma starts24 w lo up : range24 lo up -> wadaptive w = true -> integer lo -> integer up ->
  (integer (wvalue (r_first w lo up)) /\ lo <= wvalue (r_first w lo up) <= up /\ Rabs (wvalue (r_first w lo up) - (lo + golden * (up - lo))) <= 1.001) /\
  (integer (wvalue (r_second w lo up)) /\ lo <= wvalue (r_second w lo up) <= up /\ Rabs (wvalue (r_second w lo up) - (up - golden * (up - lo))) <= 1.001).
Proof.
  intros (R1 & R2 & R3) W IL IU. pose proof golden_bounds as GB. pose proof p2_24 as P24. pose proof p2_25 as P25. pose proof u_val as UV. pose proof eta_u as EU.
  assert (ONE : lo + 1 <= up). { destruct IL as [a ->], IU as [b ->]. apply lt_IZR in R2. rewrite <- plus_IZR. apply IZR_le. lia. }
  assert (W1 : up - lo <= p2 25) by (rewrite P24, P25 in *; lra). pose proof (first_width rn big RN FA lo up (Rlt_le _ _ R2) W1) as FW. set (d := r_width rn lo up) in *.
  assert (D0 : 0.618 * (up - lo) <= golden * (up - lo) <= 0.6181 * (up - lo)) by (split; nra). set (D := golden * (up - lo)) in *.
  assert (FW' := FW). apply Rabs_le_inv in FW'. rewrite UV in FW', EU.
  assert (Z : forall y, Rabs (y - y) <= 0) by (intros; replace (y - y) with 0 by ring; rewrite Rabs_R0; lra).
  split; [unfold RgoldModel.r_first|unfold RgoldModel.r_second]; cbn [wvalue]; rewrite W; fold d.
  - assert (RA : Rabs (lo + d) <= p2 25) by (apply Rabs_le; rewrite P24, P25 in *; lra).
    pose proof (near_sum rn big RN FA lo d lo D _ _ (Z lo) FW RA) as NS. apply Rabs_le_inv in NS. rewrite UV in NS. set (x := rn (lo + d)) in *.
    pose proof (rfloor_bounds x) as RB. pose proof (rfloor_int x) as RI. split; [exact RI|]. split; [|apply Rabs_le; lra].
    split; [apply int_lt_le; [exact IL|exact RI|lra]|lra].
  - assert (RA : Rabs (up - d) <= p2 25) by (apply Rabs_le; rewrite P24, P25 in *; lra).
    pose proof (near_diff rn big RN FA up d up D _ _ (Z up) FW RA) as NS. apply Rabs_le_inv in NS. rewrite UV in NS. set (x := rn (up - d)) in *.
    pose proof (rround_bounds x) as RB. pose proof (rround_int x) as RI. split; [exact RI|]. split; [|apply Rabs_le; lra].
    split; apply int_lt_le; try assumption; lra.
Qed.
Lemma rinv24_init w lo up m v1 v2 : range24 lo up -> wadaptive w = true -> integer lo -> integer up -> rinv24 lo up (r_init w lo up m v1 v2).
Proof.
  intros RA W IL IU. destruct (starts24 w lo up RA W IL IU) as [(F1 & F2 & F3) (S1 & S2 & S3)]. destruct RA as (R1 & R2 & R3). pose proof p2_24 as P24. pose proof p2_25 as P25.
  assert (W1 : up - lo <= p2 25) by (rewrite P24, P25 in *; lra). pose proof (first_width rn big RN FA lo up (Rlt_le _ _ R2) W1) as FW.
  assert (Q0 : qe 0 = 0) by (unfold qe; cbn [INR]; ring). pose proof (qe_S 0) as Q1.
  assert (Z : forall y, Rabs (y - y) <= 0) by (intros; replace (y - y) with 0 by ring; rewrite Rabs_R0; lra).
  unfold rinv24, near24, RgoldModel.r_init. cbn [xL xU dd x1 x2 iter elog calls]. rewrite Q1, Q0. split; [lia|]. split; [reflexivity|]. split.
  - exists lo, up. split; [lra|]. split; [lra|]. split; [lra|]. split; [exact FW|]. split; [apply Z|]. split; [apply Z|]. split; lra.
  - intros w' v [J|[J|[]]]; inversion J; subst; split; try assumption; lra.
Qed.
Lemma adaptive_main : forall crit w lo up m, range24 lo up -> wadaptive w = true -> integer lo -> integer up ->
  let r := r_optimize crit w lo up m in
  (forall w' v, evaluated r w' v -> integer (wvalue w') /\ lo - INR (rcalls r) < wvalue w' < up + INR (rcalls r)) /\
  (forall k w' v, (k < 2)%nat -> nth_error (rev (rlog r)) k = Some (w', v) -> lo <= wvalue w' <= up).
Proof.
  intros crit w lo up m RA W IL IU r; subst r.
  destruct (starts24 w lo up RA W IL IU) as [(F1 & F2 & _) (S1 & S2 & _)].
  assert (T : forall v1 v2 st, r_passes rn big crit w (r_init w lo up m v1 v2) st -> exists l, elog st = l ++ [(r_second w lo up, v2); (r_first w lo up, v1)]).
  { intros v1 v2 st P. refine (rpasses_inv rn big crit w (fun s => exists l, elog s = l ++ _) _ _ _ P _).
    - intros s s' [l E] _ S. unfold RgoldModel.r_step in S.
      destruct (xltb _ _); destruct (crit (calls s) _); inversion S; subst; cbn [elog]; rewrite E; eexists (_ :: l); reflexivity.
    - exists []. reflexivity. }
  assert (I : forall v1 v2 st, r_passes rn big crit w (r_init w lo up m v1 v2) st -> rinv24 lo up st).
  { intros v1 v2 st P. eapply rpasses_inv; [|exact P|apply rinv24_init; assumption]. intros; eapply rinv24_step; eauto. }
  unfold evaluated. split.
  - destruct (r_cases rn big crit w lo up m) as [H|ok1 v1 H1 H2|ok1 v1 ok2 v2 H1 H2 H3|v1 v2 H1 H2|v1 v2 st H1 H2 P G S|v1 v2 st H1 H2 P G S|v1 v2 st H1 H2 P G S];
      cbn [rlog rcalls]; intros w' v J;
      [repeat (destruct J as [J|J]; [inversion J; subst; split; auto; cbn [INR]; lra|]); destruct J..| | |];
      destruct (I _ _ _ P) as (K & C & _ & L); destruct (L _ _ J) as [Z D]; (split; [assumption|]); apply le_INR in K; replace (INR 100) with 100 in K by (cbn; lra);
      unfold qe in D; rewrite S_INR in D; rewrite ?S_INR, C, plus_INR; cbn [INR]; lra.
  - intros [|[|k]] w' v K; [| |lia];
      destruct (r_cases rn big crit w lo up m) as [H|ok1 v1 H1 H2|ok1 v1 ok2 v2 H1 H2 H3|v1 v2 H1 H2|v1 v2 st H1 H2 P G S|v1 v2 st H1 H2 P G S|v1 v2 st H1 H2 P G S]; cbn [rlog];
      try (destruct (T _ _ _ P) as [l ->]; rewrite rev_app_distr); cbn [rev app nth_error];
      intros J; inversion J; subst; auto.
Qed.

(** ** Narrow ranges. *)
Lemma narrow_main : forall crit w lo up m, range24 lo up -> p2 (-900) <= up - lo < / 10000 -> rn lo = lo -> rn up = up -> wadaptive w = false ->
  let r := r_optimize crit w lo up m in
  (rcalls r <= 2)%nat /\ (forall w' v, evaluated r w' v -> lo <= wvalue w' <= up) /\ (forall wr, rresult r = Fresh wr -> lo <= wvalue wr <= up).
Proof.
  intros crit w lo up m (R1 & R2 & R3) HW XL XU AD. cbv zeta.
  pose proof golden_bounds as GB. pose proof (rg_range rn big RN FA) as RG. pose proof p2_24 as P24. pose proof (reps_range rn big RN FA) as RR. pose proof e_val as EV.
  set (W := up - lo) in *.
  assert (WP : 0 < p2 (-900)) by (apply p2_pos).
  assert (D : 0 <= r_width rn lo up <= W).
  { unfold r_width. fold W. assert (A := FA W). rewrite (Rabs_right W) in A by lra.
    assert (B : p2 (-1000) <= W) by (apply Rle_trans with (p2 (-900)); [apply p2_le; lia|lra]). specialize (A B). fold e in A. apply Rabs_le_inv in A. rewrite EV in A.
    assert (C : 0.61 * W <= rg * rn W <= 0.63 * W) by (split; nra). assert (A2 := FA (rg * rn W)). rewrite (Rabs_right (rg * rn W)) in A2 by lra.
    assert (B2 : p2 (-1000) <= rg * rn W). { apply Rle_trans with (0.5 * p2 (-900)); [|lra]. replace (0.5 * p2 (-900)) with (p2 (-901)); [apply p2_le; lia|]. change (-901)%Z with (-1 + -900)%Z. rewrite p2_add. f_equal. unfold p2. simpl. lra. }
    specialize (A2 B2). fold e in A2. apply Rabs_le_inv in A2. rewrite EV in A2. lra. }
  set (d := r_width rn lo up) in *.
  assert (F1 : lo <= wvalue (r_first w lo up) <= up).
  { unfold RgoldModel.r_first. cbn [wvalue]. rewrite AD. fold d. split; [apply Rle_trans with (rn lo); [lra|]|apply Rle_trans with (rn up); [|lra]]; apply (rn_mono rn big RN); unfold W in D; lra. }
  assert (F2 : lo <= wvalue (r_second w lo up) <= up).
  { unfold RgoldModel.r_second. cbn [wvalue]. rewrite AD. fold d. split; [apply Rle_trans with (rn lo); [lra|]|apply Rle_trans with (rn up); [|lra]]; apply (rn_mono rn big RN); unfold W in D; lra. }
  assert (NG : forall v1 v2, r_guard (r_init w lo up m v1 v2) = false).
  { intros v1 v2. unfold RgoldModel.r_guard, RgoldModel.r_init. cbn [s1 s2 dd andb]. fold d.
    assert (X : Rltb (r_eps rn) (Rabs d) = false); [|rewrite X; reflexivity]. destruct (Rltb (r_eps rn) (Rabs d)) eqn:X; [|reflexivity]. apply Rltb_true in X. rewrite Rabs_right in X by lra.
    exfalso. assert (Y : d <= 0.63 * W + 0.000001); [|lra]. unfold d, r_width. fold W. assert (A := rn_err rn big RN FA W). rewrite (Rabs_right W) in A by lra. apply Rabs_le_inv in A.
    pose proof eta_e as ET. rewrite EV in *. assert (C : 0 <= rn W <= W + 0.0000001). { split; [rewrite <- (rn_zero rn big RN); apply (rn_mono rn big RN); lra|lra]. }
    assert (A2 := rn_err rn big RN FA (rg * rn W)). rewrite (Rabs_right (rg * rn W)) in A2 by nra. apply Rabs_le_inv in A2. assert (C2 : rg * rn W <= 0.62 * rn W) by nra. rewrite EV in A2. lra. }
  assert (ST : forall v1 v2 st, r_passes rn big crit w (r_init w lo up m v1 v2) st -> st = r_init w lo up m v1 v2).
  { intros v1 v2 st P. inversion P; subst; [reflexivity|]. rewrite NG in *. discriminate. }
  destruct (r_cases rn big crit w lo up m) as [H|ok1 v1 H1 H2|ok1 v1 ok2 v2 H1 H2 H3|v1 v2 H1 H2|v1 v2 st H1 H2 P G S|v1 v2 st H1 H2 P G S|v1 v2 st H1 H2 P G S];
    unfold evaluated; cbn [rcalls rlog rresult]; try (pose proof (ST _ _ _ P); subst st); try (rewrite NG in G; discriminate); cbn [RgoldModel.r_init calls elog xopt];
    (split; [lia|]); (split; [|intros wr E; try discriminate]); try (intros w' v J; repeat (destruct J as [J|J]; [inversion J; subst; assumption|]); destruct J).
  injection E as <-. cbn [wvalue]. unfold better. destruct (xltb v1 v2); assumption.
Qed.
End P.
