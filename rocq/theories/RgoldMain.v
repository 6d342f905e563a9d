(** The golden-section search with rounding: fixed bandwidths. *)
From Coq Require Import Reals ZArith Bool List Lra Lia Arith.
From Verif Require Import XReal XRealFacts KernelModel GoldModel GoldSpec GoldProofs GoldProofs2 RoundModel RoundSpec RoundProofs RoundAcc RgwssProofs RgoldModel RgoldSpec RgoldProofs.
Import ListNotations.
Local Open Scope R_scope.

Section P.
Variables (rn : R -> R) (big : R).
Hypothesis RN : rounding rn big.
Hypothesis FA : faithful rn.
Notation rg := (r_golden rn).
Notation reps := (r_eps rn).
Notation r_first := (r_first rn).
Notation r_second := (r_second rn).
Notation r_init := (r_init rn).
Notation r_guard := (r_guard rn big).
Notation r_step := (r_step rn).
Notation r_loop := (r_loop rn big).
Notation r_optimize := (r_optimize rn big).

(** Error of positions after k steps. *)
Definition pe (k : nat) : R := 13 * u * (INR k + 1).
Lemma pe_S k : pe (S k) = pe k + 13 * u.
Proof. unfold pe. rewrite S_INR. ring. Qed.
Lemma pe_bound k : (k <= 100)%nat -> 0 <= pe k <= 0.0000099.
Proof.
  intros H. apply le_INR in H. replace (INR 100) with 100 in H by (cbn; lra). pose proof (pos_INR k). unfold pe. rewrite u_val. split; lra.
Qed.
Lemma near_sum x y a b p q : Rabs (x - a) <= p -> Rabs (y - b) <= q -> Rabs (x + y) <= p2 25 -> Rabs (rn (x + y) - (a + b)) <= p + q + (u + eta).
Proof.
  intros A B C. pose proof (rn_abs rn big RN FA _ C) as D. apply Rabs_le_inv in A, B, D. apply Rabs_le. lra.
Qed.
Lemma near_diff x y a b p q : Rabs (x - a) <= p -> Rabs (y - b) <= q -> Rabs (x - y) <= p2 25 -> Rabs (rn (x - y) - (a - b)) <= p + q + (u + eta).
Proof.
  intros A B C. pose proof (rn_abs rn big RN FA _ C) as D. apply Rabs_le_inv in A, B, D. apply Rabs_le. lra.
Qed.
(** Positions near those of an exact search with the same outcomes of the comparisons. *)
Definition near (lo up : R) (st : vars) : Prop := exists eL eU,
  lo <= eL /\ eU <= up /\ eU - eL = golden ^ iter st * (up - lo) /\ Rabs (dd st - golden * (eU - eL)) <= 11 * u /\
  Rabs (xL st - eL) <= pe (iter st) /\ Rabs (xU st - eU) <= pe (iter st) /\
  Rabs (x1 st - (eL + golden * (eU - eL))) <= pe (iter st) /\ Rabs (x2 st - (eU - golden * (eU - eL))) <= pe (iter st).
Definition ordered (st : vars) : Prop := xL st < x2 st /\ x2 st < x1 st /\ x1 st < xU st.
Definition inv (lo up : R) (st : vars) : Prop := (iter st <= 100)%nat /\ (calls st = iter st + 2)%nat /\ near lo up st /\
  lo <= xL st /\ xU st <= up /\ ordered st /\ (xopt st = x1 st \/ xopt st = x2 st) /\ (forall w' v', In (w', v') (elog st) -> lo < wvalue w' < up).
Lemma eta_u : eta <= u / 100.
Proof. pose proof eta_e as ET. rewrite e_val in ET. rewrite u_val. lra. Qed.
Lemma near_ordered lo up st : (iter st <= 100)%nat -> near lo up st -> 0.0000999 <= golden ^ iter st * (up - lo) -> ordered st.
Proof.
  intros K (eL & eU & A1 & A2 & A3 & A4 & A5 & A6 & A7 & A8) W. rewrite <- A3 in W. pose proof (pe_bound _ K) as PB. set (p := pe (iter st)) in *. pose proof golden_bounds as GB.
  apply Rabs_le_inv in A5, A6, A7, A8. set (D := eU - eL) in *. assert (B1 : 0.618 * D <= golden * D <= 0.6181 * D) by (split; nra). unfold ordered, D in *. lra.
Qed.
Lemma pow_step st lo up eL eU : eU - eL = golden ^ iter st * (up - lo) -> golden * (eU - eL) = golden ^ S (iter st) * (up - lo).
Proof. intros E. rewrite E, <- tech_pow_Rmult. ring. Qed.
Lemma guard_d st : r_guard st = true -> reps < Rabs (dd st).
Proof. unfold RgoldModel.r_guard. rewrite !andb_true_iff. intros [[[_ H] _] _]. apply Rltb_true in H. exact H. Qed.
Lemma inv_step crit w lo up st st' : range24 lo up -> wadaptive w = false -> inv lo up st -> r_guard st = true -> r_step crit w st = Some st' -> inv lo up st' /\ xL st <= xL st' /\ xU st' <= xU st.
Proof.
  intros (R1 & R2 & R3) AD (I1 & IC & (eL & eU & A1 & A2 & A3 & A4 & A5 & A6 & A7 & A8) & L & U & (O1 & O2 & O3) & XO & LG) G S.
  pose proof (guard_iter rn big st G) as K. pose proof (guard_d st G) as GD. pose proof (reps_range rn big RN FA) as RR.
  pose proof golden_bounds as GB. pose proof golden_sq as GS. pose proof p2_24 as P24. pose proof p2_25 as P25. pose proof u_val as UV. pose proof eta_u as EU.
  set (W := eU - eL) in *. set (p := pe (iter st)) in *. assert (PB : 0 <= p <= 0.0000099) by (apply pe_bound; lia).
  assert (PS : pe (Datatypes.S (iter st)) = p + 13 * u) by apply pe_S. assert (PB' : 0 <= p + 13 * u <= 0.0000099) by (rewrite <- PS; apply pe_bound; lia).
  assert (W0 : 0 <= W) by (rewrite A3; apply Rmult_le_pos; [apply pow_le; lra|lra]).
  assert (W1 : W <= p2 25) by (unfold W; lra).
  pose proof (shrink rn big RN FA (dd st) W A4 (conj W0 W1)) as SH. set (d' := rn (rg * dd st)) in *.
  apply Rabs_le_inv in A4.
  assert (WL : 0.0000999 <= golden * W).
  { assert (D : Rabs (dd st) <= golden * W + 11 * u) by (apply Rabs_le; assert (0 <= golden * W) by nra; lra). rewrite UV in *. lra. }
  assert (WB : golden * W <= 0.6181 * W) by nra. assert (WB2 : 0.618 * W <= golden * W) by nra.
  assert (WQ : golden * (golden * W) = W - golden * W) by (rewrite <- Rmult_assoc, GS; ring).
  assert (WS : golden * W = golden ^ Datatypes.S (iter st) * (up - lo)) by (apply (pow_step st lo up eL eU A3)).
  assert (NO : forall st1, iter st1 = Datatypes.S (iter st) -> near lo up st1 -> ordered st1).
  { intros st1 E N. apply (near_ordered lo up); [lia|exact N|]. rewrite E, <- WS. lra. }
  unfold RgoldModel.r_step in S. fold d' in S. rewrite AD in S. pose proof SH as SH'. apply Rabs_le_inv in SH'.
  destruct (xltb (f1 st) (f2 st)).
  - assert (N : Rabs (rn (x2 st + d') - (eU - golden * W + golden * (golden * W))) <= p + 13 * u).
    { eapply Rle_trans; [apply near_sum; [exact A8|exact SH|]|rewrite UV in *; lra]. apply Rabs_le_inv in A8. apply Rabs_le. rewrite UV, P24, P25 in *. unfold W in *. lra. }
    destruct (crit (calls st) _) as [ok v|]; [|discriminate]. injection S as <-.
    match goal with |- inv lo up ?s /\ _ => set (st1 := s) end.
    assert (NE : near lo up st1).
    { exists (eU - golden * W), eU. cbn [st1 iter xL xU x1 x2 dd]. rewrite PS. replace (eU - (eU - golden * W)) with (golden * W) by ring.
      split; [unfold W in *; lra|]. split; [exact A2|]. split; [exact WS|]. split; [exact SH|]. split; [eapply Rle_trans; [exact A8|lra]|]. split; [eapply Rle_trans; [exact A6|lra]|].
      split; [exact N|]. rewrite WQ. replace (eU - (W - golden * W)) with (eL + golden * W) by (unfold W; ring). eapply Rle_trans; [exact A7|lra]. }
    pose proof (NO st1 eq_refl NE) as OR. pose proof OR as (Q1 & Q2 & Q3). cbn [st1 xL xU x1 x2] in Q1, Q2, Q3.
    split; [|cbn [st1 xL xU]; lra]. split; [cbn [st1 iter]; lia|]. split; [cbn [st1 iter calls]; lia|]. split; [exact NE|]. cbn [st1 xL xU elog xopt x1 x2].
    split; [lra|]. split; [lra|]. split; [exact OR|]. split; [apply better_or|]. intros w' v' [E|H]; [injection E as <- _; cbn [wvalue]; lra|exact (LG _ _ H)].
  - assert (N : Rabs (rn (x1 st - d') - (eL + golden * W - golden * (golden * W))) <= p + 13 * u).
    { eapply Rle_trans; [apply near_diff; [exact A7|exact SH|]|rewrite UV in *; lra]. apply Rabs_le_inv in A7. apply Rabs_le. rewrite UV, P24, P25 in *. unfold W in *. lra. }
    destruct (crit (calls st) _) as [ok v|]; [|discriminate]. injection S as <-.
    match goal with |- inv lo up ?s /\ _ => set (st1 := s) end.
    assert (NE : near lo up st1).
    { exists eL, (eL + golden * W). cbn [st1 iter xL xU x1 x2 dd]. rewrite PS. replace (eL + golden * W - eL) with (golden * W) by ring.
      split; [exact A1|]. split; [unfold W in *; lra|]. split; [exact WS|]. split; [exact SH|]. split; [eapply Rle_trans; [exact A5|lra]|]. split; [eapply Rle_trans; [exact A7|lra]|].
      split; [|exact N]. rewrite WQ. replace (eL + (W - golden * W)) with (eU - golden * W) by (unfold W; ring). eapply Rle_trans; [exact A8|lra]. }
    pose proof (NO st1 eq_refl NE) as OR. pose proof OR as (Q1 & Q2 & Q3). cbn [st1 xL xU x1 x2] in Q1, Q2, Q3.
    split; [|cbn [st1 xL xU]; lra]. split; [cbn [st1 iter]; lia|]. split; [cbn [st1 iter calls]; lia|]. split; [exact NE|]. cbn [st1 xL xU elog xopt x1 x2].
    split; [lra|]. split; [lra|]. split; [exact OR|]. split; [apply better_or|]. intros w' v' [E|H]; [injection E as <- _; cbn [wvalue]; lra|exact (LG _ _ H)].
Qed.
Lemma init_near w lo up m v1 v2 : range24 lo up -> wadaptive w = false -> near lo up (r_init w lo up m v1 v2).
Proof.
  intros (R1 & R2 & R3) AD. pose proof golden_bounds as GB. pose proof p2_24 as P24. pose proof p2_25 as P25. pose proof u_val as UV. pose proof eta_u as EU.
  assert (FW := first_width rn big RN FA lo up (Rlt_le _ _ R2)). specialize (FW ltac:(lra)). pose proof FW as FW'. apply Rabs_le_inv in FW'.
  unfold near, RgoldModel.r_init, RgoldModel.r_first, RgoldModel.r_second. cbv zeta. cbn [iter xL xU x1 x2 dd wvalue]. rewrite AD. set (d := r_width rn lo up) in *.
  assert (P0 : pe 0 = 13 * u) by (unfold pe; cbn [INR]; ring). rewrite P0. assert (Z0 : forall x, Rabs (x - x) <= 0) by (intros x; rewrite Rminus_diag_eq, Rabs_R0 by reflexivity; lra).
  assert (GW : 0.618 * (up - lo) <= golden * (up - lo) <= 0.6181 * (up - lo)) by (split; nra).
  exists lo, up. split; [lra|]. split; [lra|]. split; [cbn [pow]; ring|]. split; [exact FW|].
  split; [eapply Rle_trans; [apply Z0|lra]|]. split; [eapply Rle_trans; [apply Z0|lra]|]. split.
  - eapply Rle_trans; [apply near_sum; [apply Z0|exact FW|]|lra]. apply Rabs_le. rewrite UV, P24, P25 in *. lra.
  - eapply Rle_trans; [apply near_diff; [apply Z0|exact FW|]|lra]. apply Rabs_le. rewrite UV, P24, P25 in *. lra.
Qed.
Lemma init_inv w lo up m v1 v2 : range24 lo up -> / 10000 <= up - lo -> wadaptive w = false -> inv lo up (r_init w lo up m v1 v2).
Proof.
  intros RA HW AD. pose proof (init_near w lo up m v1 v2 RA AD) as N.
  assert (O : ordered (r_init w lo up m v1 v2)) by (apply (near_ordered lo up); [cbn; lia|exact N|cbn [iter RgoldModel.r_init pow]; lra]).
  split; [cbn; lia|]. split; [reflexivity|]. split; [exact N|]. destruct RA as (_ & R2 & _). split; [cbn; lra|]. split; [cbn; lra|]. split; [exact O|].
  destruct O as (Q1 & Q2 & Q3). cbn [xL xU x1 x2 RgoldModel.r_init] in Q1, Q2, Q3. split; [apply better_or|].
  intros w' v' [E|[E|[]]]; injection E as <- _; lra.
Qed.
Lemma reach_inv crit w lo up m st : range24 lo up -> / 10000 <= up - lo -> wadaptive w = false -> r_reaches rn big crit w lo up m st -> inv lo up st.
Proof.
  intros RA HW AD (v1 & v2 & _ & _ & P). eapply (rpasses_inv rn big crit w (inv lo up)); [|exact P|apply init_inv; assumption].
  intros s s' I G S. exact (proj1 (inv_step crit w lo up s s' RA AD I G S)).
Qed.
End P.
