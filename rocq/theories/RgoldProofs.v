(** The golden-section search with rounding: structure and positions. *)
From Coq Require Import Reals ZArith Bool List Lra Lia Arith.
From Verif Require Import XReal XRealFacts KernelModel GoldModel GoldSpec GoldProofs GoldProofs2 RoundModel RoundSpec RoundProofs RoundAcc RgwssProofs RgoldModel RgoldSpec.
Import ListNotations.
Local Open Scope R_scope.

Lemma Rabs_le_inv x y : Rabs x <= y -> - y <= x <= y.
Proof. unfold Rabs. destruct (Rcase_abs x); lra. Qed.

Section P.
Variables (rn : R -> R) (big : R).
Hypothesis RN : rounding rn big.
Hypothesis FA : faithful rn.
Notation rg := (r_golden rn).
Notation reps := (r_eps rn).
Notation r_first := (r_first rn).
Notation r_second := (r_second rn).
Notation r_init := (r_init rn).
Notation r_guard := (r_guard rn big).
Notation r_step := (r_step rn).
Notation r_loop := (r_loop rn big).
Notation r_optimize := (r_optimize rn big).

(** ** Structure of the loop. *)
Notation rpasses := (r_passes rn big).
Lemma rpasses_inv crit w (P : vars -> Prop) :
  (forall st st', P st -> r_guard st = true -> r_step crit w st = Some st' -> P st') ->
  forall st e, rpasses crit w st e -> P st -> P e.
Proof. intros K st e H; induction H; intros; eauto. Qed.
Lemma r_loop_passes crit w fuel : forall st, match r_loop fuel crit w st with
  | LDone e => rpasses crit w st e /\ r_guard e = false
  | LFail e => rpasses crit w st e /\ r_guard e = true /\ r_step crit w e = None
  | LFuel => exists e, rpasses crit w st e /\ iter e = (iter st + fuel)%nat /\ r_guard e = true
  end.
Proof.
  induction fuel as [|n IH]; intros st; cbn [RgoldModel.r_loop].
  - destruct (r_guard st) eqn:G; [exists st; split; [constructor|split; [lia|exact G]]|split; [constructor|exact G]].
  - destruct (r_guard st) eqn:G; [|split; [constructor|exact G]]. destruct (r_step crit w st) as [st'|] eqn:S; [|split; [constructor|auto]].
    assert (It : iter st' = Datatypes.S (iter st)).
    { unfold RgoldModel.r_step in S. destruct (xltb (f1 st) (f2 st)); destruct (crit (calls st) _); inversion S; subst; reflexivity. }
    specialize (IH st'). destruct (r_loop n crit w st') as [e|e|].
    + destruct IH as [P Q]; split; auto. econstructor; eauto.
    + destruct IH as [P Q]; split; auto. econstructor; eauto.
    + destruct IH as (e & P & Q & Q'). exists e. split; [econstructor; eauto|]. split; [lia|exact Q'].
Qed.
Lemma guard_iter st : r_guard st = true -> (iter st < 100)%nat.
Proof. unfold RgoldModel.r_guard. rewrite !andb_true_iff. intros [_ H]. apply Nat.ltb_lt in H. exact H. Qed.
(** Case analysis of the search. *)
Inductive ropt_case (crit : criterion) (w : weight) (lo up : R) (m : list (R * xd)) : report -> Prop :=
| rc_raise1 : crit 0%nat (r_first w lo up) = Raise -> ropt_case crit w lo up m (mkReport Thrown 1 [] m [TW1; TW2] None)
| rc_raise2 ok1 v1 : crit 0%nat (r_first w lo up) = Answer ok1 v1 -> crit 1%nat (r_second w lo up) = Raise ->
    ropt_case crit w lo up m (mkReport Thrown 2 [(r_first w lo up, v1)] m [TW1; TW2] None)
| rc_cancel ok1 v1 ok2 v2 : crit 0%nat (r_first w lo up) = Answer ok1 v1 -> crit 1%nat (r_second w lo up) = Answer ok2 v2 -> ok1 && ok2 = false ->
    ropt_case crit w lo up m (mkReport Original 2 [(r_second w lo up, v2); (r_first w lo up, v1)] m [TW1; TW2] None)
| rc_invalid v1 v2 : crit 0%nat (r_first w lo up) = Answer true v1 -> crit 1%nat (r_second w lo up) = Answer true v2 ->
    ropt_case crit w lo up m (mkReport Thrown 2 [(r_second w lo up, v2); (r_first w lo up, v1)] m [TW1; TW2] None)
| rc_fail v1 v2 st : crit 0%nat (r_first w lo up) = Answer true v1 -> crit 1%nat (r_second w lo up) = Answer true v2 ->
    rpasses crit w (r_init w lo up m v1 v2) st -> r_guard st = true -> r_step crit w st = None ->
    ropt_case crit w lo up m (mkReport Thrown (S (calls st)) (elog st) (cmap st) [TW1; TW2] (Some st))
| rc_fresh v1 v2 st : crit 0%nat (r_first w lo up) = Answer true v1 -> crit 1%nat (r_second w lo up) = Answer true v2 ->
    rpasses crit w (r_init w lo up m v1 v2) st -> r_guard st = false -> s1 st && s2 st = true ->
    ropt_case crit w lo up m (mkReport (Fresh (mkWeight (wkernel w) (wadaptive w) (xopt st))) (calls st) (elog st) (cmap st) [TWopt] (Some st))
| rc_stop v1 v2 st : crit 0%nat (r_first w lo up) = Answer true v1 -> crit 1%nat (r_second w lo up) = Answer true v2 ->
    rpasses crit w (r_init w lo up m v1 v2) st -> r_guard st = false -> s1 st && s2 st = false ->
    ropt_case crit w lo up m (mkReport Original (calls st) (elog st) (cmap st) [] (Some st)).
Lemma r_cases crit w lo up m : ropt_case crit w lo up m (r_optimize crit w lo up m).
Proof.
  unfold RgoldModel.r_optimize.
  destruct (crit 0%nat (r_first w lo up)) as [ok1 v1|] eqn:C1; [|constructor; auto].
  destruct (crit 1%nat (r_second w lo up)) as [ok2 v2|] eqn:C2; [|econstructor; eauto].
  destruct (ok1 && ok2) eqn:O; cbn [negb]; [|econstructor; eauto].
  apply andb_true_iff in O as [-> ->].
  destruct (is_max_dbl v1 && is_max_dbl v2) eqn:M; [constructor; auto|].
  pose proof (r_loop_passes crit w 101 (r_init w lo up m v1 v2)) as L.
  destruct (r_loop 101 crit w (r_init w lo up m v1 v2)) as [st|st|].
  - destruct L as [P G]. destruct (s1 st && s2 st) eqn:S; econstructor; eauto.
  - destruct L as (P & G & S). econstructor; eauto.
  - exfalso. destruct L as (e & P & It & G). apply guard_iter in G. cbn [iter RgoldModel.r_init] in It. lia.
Qed.

(** ** Constants. *)
Definition u : R := p2 (-27).
Lemma u_val : u = / 134217728.
Proof. unfold u. change (-27)%Z with (0 - 27)%Z. rewrite p2_sub, p2_0. replace (p2 27) with 134217728 by (unfold p2; simpl; lra). lra. Qed.
Lemma p2_25 : p2 25 = 33554432.
Proof. unfold p2. simpl. lra. Qed.
Lemma p2_24 : p2 24 = 16777216.
Proof. unfold p2. simpl. lra. Qed.
Lemma e_val : e = / 4503599627370496.
Proof. unfold e. change (-52)%Z with (0 - (26 + 26))%Z. rewrite p2_sub, p2_0, p2_add. replace (p2 26) with 67108864 by (unfold p2; simpl; lra). lra. Qed.
Lemma eta_e : 0 < eta <= e * e * e.
Proof.
  split; [apply eta_pos|]. unfold e, eta. rewrite <- !p2_add. apply p2_le. lia.
Qed.
(** Rounding of numbers up to 2^25. *)
Lemma rn_abs x : Rabs x <= p2 25 -> Rabs (rn x - x) <= u + eta.
Proof.
  intros H. pose proof (rn_err rn big RN FA x) as A. assert (B : e * Rabs x <= e * p2 25) by (apply Rmult_le_compat_l; [pose proof e_small; lra|exact H]).
  assert (C : e * p2 25 = u) by (unfold e, u; rewrite <- p2_add; reflexivity). lra.
Qed.
Lemma rg_close : Rabs (rg - golden) <= 3 * e.
Proof.
  unfold r_golden, golden. set (s := sqrt 5).
  assert (S1 : 2.236 < s < 2.2361).
  { unfold s. split; [rewrite <- (sqrt_square 2.236) by lra|rewrite <- (sqrt_square 2.2361) by lra]; apply sqrt_lt_1; lra. }
  pose proof e_val as EV. pose proof eta_e as ET. set (E := e) in *. assert (E3 : E * E * E <= E / 1000) by (rewrite EV; lra).
  pose proof (rn_err rn big RN FA s) as A. pose proof (rn_err rn big RN FA (rn s - 1)) as B. pose proof (rn_err rn big RN FA (rn (rn s - 1) / 2)) as C. fold E in A, B, C.
  rewrite (Rabs_right s) in A by lra. apply Rabs_le_inv in A.
  assert (A1 : rn s - 1 <= 1.24) by (rewrite EV in A; lra). assert (A2 : 1.23 <= rn s - 1) by (rewrite EV in A; lra).
  rewrite (Rabs_right (rn s - 1)) in B by lra. apply Rabs_le_inv in B.
  assert (B1 : rn (rn s - 1) <= 1.241) by (rewrite EV in B; lra). assert (B2 : 1.229 <= rn (rn s - 1)) by (rewrite EV in B; lra).
  rewrite (Rabs_right (rn (rn s - 1) / 2)) in C by lra. apply Rabs_le_inv in C.
  apply Rabs_le. assert (P : 0 < E) by (rewrite EV; lra). assert (Q1 : E * s <= 2.2361 * E) by nra. assert (Q2 : E * (rn s - 1) <= 1.24 * E) by nra.
  assert (Q3 : E * (rn (rn s - 1) / 2) <= 0.6205 * E) by nra. lra.
Qed.
Lemma rg_range : 0.618 < rg < 0.61804.
Proof. pose proof rg_close as A. pose proof golden_bounds as B. apply Rabs_le_inv in A. pose proof e_val. lra. Qed.
Lemma reps_range : 0.000099999 < reps < 0.000100001.
Proof.
  unfold r_eps. pose proof (rn_err rn big RN FA (1 / 10000)) as A. rewrite (Rabs_right (1 / 10000)) in A by lra. apply Rabs_le_inv in A.
  pose proof eta_e as ET. pose proof e_val as EV. rewrite EV in *. lra.
Qed.
(** The shrinking of d. *)
Lemma shrink d W : Rabs (d - golden * W) <= 11 * u -> 0 <= W <= p2 25 -> Rabs (rn (rg * d) - golden * (golden * W)) <= 11 * u.
Proof.
  intros H HW. pose proof golden_bounds as GB. pose proof rg_range as RG. pose proof rg_close as RC. pose proof u_val as UV. pose proof p2_25 as P25. pose proof e_val as EV. pose proof eta_e as ET.
  apply Rabs_le_inv in H. apply Rabs_le_inv in RC.
  assert (D : -1 <= d <= p2 25 * 0.62) by (rewrite P25 in *; rewrite UV in H; split; nra).
  assert (X : Rabs (rg * d) <= p2 25) by (apply Rabs_le; rewrite P25 in *; split; nra).
  pose proof (rn_abs _ X) as A. apply Rabs_le_inv in A.
  assert (Y : Rabs ((rg - golden) * d) <= 3 * u).
  { rewrite Rabs_mult. apply Rle_trans with (3 * e * (p2 25 * 0.62)).
    - apply Rmult_le_compat; [apply Rabs_pos|apply Rabs_pos|apply Rabs_le; lra|apply Rabs_le; rewrite P25 in *; lra].
    - rewrite UV, EV, P25. lra. }
  apply Rabs_le_inv in Y. assert (Z : rn (rg * d) - golden * (golden * W) = (rn (rg * d) - rg * d) + (rg - golden) * d + golden * (d - golden * W)) by ring.
  assert (G1 : -(0.6181 * (11 * u)) <= golden * (d - golden * W) <= 0.6181 * (11 * u)) by (rewrite UV in *; split; nra).
  assert (T : eta <= u / 100) by (rewrite UV; rewrite EV in ET; lra).
  apply Rabs_le. rewrite Z. rewrite UV in *. split; lra.
Qed.
Lemma first_width lo up : lo <= up -> up - lo <= p2 25 -> Rabs (r_width rn lo up - golden * (up - lo)) <= 11 * u.
Proof.
  intros L H. unfold r_width. pose proof golden_bounds as GB. pose proof rg_range as RG. pose proof rg_close as RC. pose proof u_val as UV. pose proof p2_25 as P25. pose proof e_val as EV. pose proof eta_e as ET.
  set (W := up - lo) in *. assert (W0 : 0 <= W) by (unfold W; lra). assert (T : eta <= u / 100) by (rewrite UV; rewrite EV in ET; lra).
  assert (A := rn_abs W). rewrite Rabs_right in A by lra. specialize (A H). apply Rabs_le_inv in A. apply Rabs_le_inv in RC.
  assert (D : -1 <= rn W <= p2 25 + 1) by (rewrite UV in *; lra).
  assert (X : Rabs (rg * rn W) <= p2 25) by (apply Rabs_le; rewrite P25 in *; split; nra).
  pose proof (rn_abs _ X) as B. apply Rabs_le_inv in B.
  assert (Y : Rabs ((rg - golden) * rn W) <= 4 * u).
  { rewrite Rabs_mult. apply Rle_trans with (3 * e * (p2 25 + 1)).
    - apply Rmult_le_compat; [apply Rabs_pos|apply Rabs_pos|apply Rabs_le; lra|apply Rabs_le; rewrite P25 in *; lra].
    - rewrite UV, EV, P25. lra. }
  apply Rabs_le_inv in Y. assert (Z : rn (rg * rn W) - golden * W = (rn (rg * rn W) - rg * rn W) + (rg - golden) * rn W + golden * (rn W - W)) by ring.
  assert (G1 : -(2 * u) <= golden * (rn W - W) <= 2 * u) by (rewrite UV in *; split; nra).
  apply Rabs_le. rewrite Z. rewrite UV in *. split; lra.
Qed.
End P.
