(** Proofs about GTWR. *)
From Coq Require Import Reals Bool List Arith Lia Lra Psatz.
From Verif Require Import Outcome XReal XRealFacts DistModel DistSpec DistProofs DistProofs2 GtwrModel GtwrSpec.
Import ListNotations.
Local Open Scope R_scope.

(** ** LambdaAutoSelection *)

Lemma ratio_sq : l_ratio * l_ratio = 1 - l_ratio.
Proof. unfold l_ratio. assert (H : sqrt 5 * sqrt 5 = 5) by (apply sqrt_sqrt; lra). lra. Qed.

Lemma ratio_bounds : 6 / 10 < l_ratio < 62 / 100.
Proof.
  pose proof ratio_sq as Q. assert (0 < l_ratio).
  { unfold l_ratio. assert (1 < sqrt 5); [|lra]. rewrite <- sqrt_1 at 1. apply sqrt_lt_1; lra. }
  split; nra.
Qed.

(** Shape of the bracket after [k] iterations. *)
Definition shape (s : lvars) : Prop :=
  0 <= l_a s /\ l_b s <= 1 /\ l_b s - l_a s = l_ratio ^ l_iter s /\
  l_p s = l_a s + (1 - l_ratio) * (l_b s - l_a s) /\ l_q s = l_a s + l_ratio * (l_b s - l_a s) /\
  length (l_log s) = (4 + l_iter s)%nat /\ Forall (fun l => 0 <= l <= 1) (l_log s) /\ (l_iter s <= 100)%nat.

Lemma guard_iter : forall s, l_guard s = true -> (l_iter s < 100)%nat.
Proof. intros s G; unfold l_guard in G; apply andb_prop in G as [_ G]; apply Nat.ltb_lt, G. Qed.

Lemma shape_step : forall f s s', shape s -> l_guard s = true -> l_step f s = Some s' ->
  shape s' /\ l_iter s' = S (l_iter s).
Proof.
  intros f s s' (A & B & L & P & Q & N & F & I) G E.
  pose proof (guard_iter s G) as GI. pose proof ratio_bounds as RB. pose proof ratio_sq as RS.
  assert (LP : 0 < l_b s - l_a s) by (rewrite L; apply pow_lt; lra).
  unfold l_step in E.
  destruct (xltb (l_fq s) (l_fp s)).
  - destruct (f (length (l_log s)) _) as [[ok v]|]; [|discriminate]. injection E as <-.
    unfold shape; cbn [l_a l_b l_p l_q l_iter l_log].
    assert (LE : l_q s - l_a s = l_ratio * (l_b s - l_a s)) by (rewrite Q; ring).
    split; [repeat split|reflexivity].
    + exact A.
    + rewrite Q; nra.
    + rewrite LE, L; reflexivity.
    + rewrite LE, P. rewrite <- Rmult_assoc. rewrite RS. reflexivity.
    + simpl; rewrite N; reflexivity.
    + constructor; [|exact F]. rewrite LE. split; nra.
    + lia.
  - destruct (f (length (l_log s)) _) as [[ok v]|]; [|discriminate]. injection E as <-.
    unfold shape; cbn [l_a l_b l_p l_q l_iter l_log].
    assert (LE : l_b s - l_p s = l_ratio * (l_b s - l_a s)) by (rewrite P; ring).
    split; [repeat split|reflexivity].
    + rewrite P; nra.
    + exact B.
    + rewrite LE, L; reflexivity.
    + rewrite LE, Q, P. nra.
    + simpl; rewrite N; reflexivity.
    + constructor; [|exact F]. rewrite LE, P. split; nra.
    + lia.
Qed.

Lemma loop_shape : forall fuel f s, shape s -> (101 <= fuel + l_iter s)%nat ->
  match l_loop fuel f s with
  | LDone s' => shape s' /\ l_guard s' = false
  | LFail log => (1 <= length log <= 104)%nat /\ Forall (fun l => 0 <= l <= 1) log
  | LFuel => False
  end.
Proof.
  induction fuel as [|n IH]; intros f s SH E; simpl; destruct (l_guard s) eqn:G; auto.
  - pose proof (guard_iter s G); lia.
  - destruct (l_step f s) as [s'|] eqn:T.
    + destruct (shape_step f s s' SH G T) as [S' I']. apply IH; [exact S'|lia].
    + destruct SH as (A & B & L & P & Q & N & F & _). pose proof (guard_iter s G). cbn [length].
      split; [lia|]. constructor; [|exact F].
      pose proof ratio_bounds as RB. assert (LP : 0 < l_b s - l_a s) by (rewrite L; apply pow_lt; lra).
      assert (E1 : l_q s - l_a s = l_ratio * (l_b s - l_a s)) by (rewrite Q; ring).
      assert (E2 : l_b s - l_p s = l_ratio * (l_b s - l_a s)) by (rewrite P; ring).
      unfold l_next. rewrite E1, E2, P. set (d := l_b s - l_a s) in *.
      assert (l_b s = l_a s + d) by (unfold d; ring).
      assert (M : 0 <= (1 - l_ratio) * d <= d / 2) by (split; nra).
      assert (0 <= (1 - l_ratio) * (l_ratio * d) <= d).
      { replace ((1 - l_ratio) * (l_ratio * d)) with (l_ratio * ((1 - l_ratio) * d)) by ring.
        set (e := (1 - l_ratio) * d) in *. split; nra. }
      assert (0 <= (1 - l_ratio) * d + l_ratio * (l_ratio * d) <= d).
      { replace (l_ratio * (l_ratio * d)) with ((l_ratio * l_ratio) * d) by ring. rewrite ratio_sq. lra. }
      destruct (xltb _ _); split; lra.
Qed.

Definition l_init (fa fb fp fq : bool * xd) : lvars :=
  mkL 0 1 (0 + (1 - l_ratio) * (1 - 0)) (0 + l_ratio * (1 - 0)) (snd fa) (snd fb) (snd fp) (snd fq)
      (fst fa) (fst fb) (fst fp) (fst fq) 0
      [0 + l_ratio * (1 - 0); 0 + (1 - l_ratio) * (1 - 0); 1; 0].

Lemma init_shape : forall fa fb fp fq, shape (l_init fa fb fp fq).
Proof.
  intros. pose proof ratio_bounds. unfold shape, l_init; cbn [l_a l_b l_p l_q l_iter l_log].
  repeat split; try lra; try (simpl; lra); try lia.
  repeat constructor; lra.
Qed.

Lemma select_cases : forall f,
  (exists log, LambdaAutoSelection f = LRaised log /\ (1 <= length log <= 104)%nat /\ Forall (fun l => 0 <= l <= 1) log) \/
  (exists s, LambdaAutoSelection f = l_finish s /\ shape s /\ l_guard s = false).
Proof.
  intros f. pose proof ratio_bounds as RB. unfold LambdaAutoSelection. cbv zeta.
  destruct (f 0%nat 0) as [[sa fa]|]; [|left; eexists; repeat split; [simpl; lia|simpl; lia|repeat constructor; lra]].
  destruct (f 1%nat 1) as [[sb fb]|]; [|left; eexists; repeat split; [simpl; lia|simpl; lia|repeat constructor; lra]].
  destruct (f 2%nat _) as [[sp fp]|]; [|left; eexists; repeat split; [simpl; lia|simpl; lia|repeat constructor; lra]].
  destruct (f 3%nat _) as [[sq fq]|]; [|left; eexists; repeat split; [simpl; lia|simpl; lia|repeat constructor; lra]].
  pose proof (loop_shape 101 f _ (init_shape (sa, fa) (sb, fb) (sp, fp) (sq, fq)) ltac:(simpl; lia)) as H.
  unfold l_init in H; cbn [fst snd] in H.
  destruct (l_loop 101 f _) as [s|log|]; [right; exists s; split; [reflexivity|exact H]| |contradiction].
  left; exists log; split; [reflexivity|exact H].
Qed.

Lemma lambda_range : forall f,
  (exists lambda log, LambdaAutoSelection f = LChosen lambda log /\ 0 <= lambda <= 1 /\
     (4 <= length log <= 104)%nat /\ Forall (fun l => 0 <= l <= 1) log) \/
  (exists log, LambdaAutoSelection f = LRaised log /\ (1 <= length log <= 104)%nat /\ Forall (fun l => 0 <= l <= 1) log).
Proof.
  intros f. destruct (select_cases f) as [H|[s [E [(A & B & L & P & Q & N & F & I) G]]]]; [right; exact H|].
  left. unfold l_finish in E. eexists _, _; split; [exact E|].
  assert (0 < l_ratio ^ l_iter s) by (apply pow_lt; pose proof ratio_bounds; lra).
  split; [destruct (l_all s); lra|]. split; [rewrite N; lia|exact F].
Qed.

(** ** Unimodal criteria *)

Definition tracks (g : R -> R) (s : lvars) : Prop :=
  l_fa s = XF (g (l_a s)) /\ l_fb s = XF (g (l_b s)) /\ l_fp s = XF (g (l_p s)) /\ l_fq s = XF (g (l_q s)) /\
  l_all s = true.

Lemma unimodal_step : forall g mx f s s', 0 <= mx <= 1 -> unimodal g mx -> (forall k l, f k l = Some (true, XF (g l))) ->
  shape s -> tracks g s -> l_a s <= mx <= l_b s -> l_guard s = true -> l_step f s = Some s' ->
  tracks g s' /\ l_a s' <= mx <= l_b s'.
Proof.
  intros g mx f s s' M [U1 U2] Hf SH (TA & TB & TP & TQ & OK) I G E.
  destruct SH as (A & B & L & P & Q & _). pose proof ratio_bounds as RB.
  assert (LP : 0 < l_b s - l_a s) by (rewrite L; apply pow_lt; lra).
  assert (PQ : l_a s < l_p s /\ l_p s < l_q s /\ l_q s < l_b s) by (rewrite P, Q; repeat split; nra).
  unfold l_all in OK. repeat (apply andb_prop in OK as [OK ?]).
  unfold l_step in E. rewrite !Hf in E. rewrite TP, TQ in E.
  change (xltb (XF (g (l_q s))) (XF (g (l_p s)))) with (Rltb (g (l_q s)) (g (l_p s))) in E.
  destruct (Rltb (g (l_q s)) (g (l_p s))) eqn:C; injection E as <-;
    unfold tracks, l_all; cbn [l_a l_b l_p l_q l_fa l_fb l_fp l_fq l_oka l_okb l_okp l_okq].
  - apply Rltb_true in C. split.
    + rewrite OK, H, H1. repeat split; try assumption. 
    + split; [lra|]. destruct (Rle_dec mx (l_q s)); [assumption|].
      exfalso. pose proof (U1 (l_p s) (l_q s)). lra.
  - apply Rltb_false in C. split.
    + rewrite OK, H0, H1. repeat split; try assumption.
    + split; [|lra]. destruct (Rle_dec (l_p s) mx); [assumption|].
      exfalso. pose proof (U2 (l_p s) (l_q s)). lra.
Qed.

Lemma unimodal_loop : forall g mx f, 0 <= mx <= 1 -> unimodal g mx -> (forall k l, f k l = Some (true, XF (g l))) ->
  forall fuel s, shape s -> tracks g s -> l_a s <= mx <= l_b s -> (101 <= fuel + l_iter s)%nat ->
  exists s', l_loop fuel f s = LDone s' /\ shape s' /\ tracks g s' /\ l_a s' <= mx <= l_b s' /\ l_guard s' = false.
Proof.
  intros g mx f M U Hf. induction fuel as [|n IH]; intros s SH T I E; simpl; destruct (l_guard s) eqn:G;
    try (exists s; auto; fail).
  - pose proof (guard_iter s G); lia.
  - destruct (l_step f s) as [s'|] eqn:Q.
    + destruct (shape_step f s s' SH G Q) as [S' I'].
      destruct (unimodal_step g mx f s s' M U Hf SH T I G Q) as [T' B'].
      apply IH; auto; lia.
    + exfalso. unfold l_step in Q. rewrite !Hf in Q. destruct (xltb _ _); discriminate.
Qed.

Lemma unimodal_select : forall g mx f, 0 <= mx <= 1 -> unimodal g mx -> (forall k l, f k l = Some (true, XF (g l))) ->
  exists k lambda log, LambdaAutoSelection f = LChosen lambda log /\ length log = (4 + k)%nat /\ (k <= 100)%nat /\
    Rabs (lambda - mx) <= l_ratio ^ k / 2 /\
    (k = 100%nat \/
     Rabs (g (lambda - l_ratio ^ k / 2) - g (lambda + l_ratio ^ k / 2)) < / 10 ^ 12).
Proof.
  intros g mx f M U Hf.
  set (pp := 0 + (1 - l_ratio) * (1 - 0)). set (qq := 0 + l_ratio * (1 - 0)).
  destruct (unimodal_loop g mx f M U Hf 101
     (l_init (true, XF (g 0)) (true, XF (g 1)) (true, XF (g pp)) (true, XF (g qq))))
    as [s [E [SH [T [I G]]]]].
  - apply init_shape.
  - repeat split.
  - exact M.
  - simpl; lia.
  - destruct SH as (A & B & L & P & Q & N & F & It).
    assert (ALL := proj2 (proj2 (proj2 (proj2 T)))).
    exists (l_iter s), ((l_b s + l_a s) / 2), (l_log s).
    split; [|split; [exact N|split; [exact It|split]]].
    + unfold LambdaAutoSelection; cbv zeta. rewrite !Hf. unfold l_init in E; cbn [fst snd] in E.
      unfold pp, qq in E. rewrite E. unfold l_finish. rewrite ALL. reflexivity.
    + rewrite <- L. apply Rabs_le. lra.
    + destruct (Nat.eq_dec (l_iter s) 100) as [|NE]; [left; assumption|right].
      replace ((l_b s + l_a s) / 2 - l_ratio ^ l_iter s / 2) with (l_a s) by lra.
      replace ((l_b s + l_a s) / 2 + l_ratio ^ l_iter s / 2) with (l_b s) by lra.
      unfold l_guard in G. rewrite ALL in G.
      replace (l_iter s <? 100)%nat with true in G by (symmetry; apply Nat.ltb_lt; lia).
      rewrite andb_true_r in G. cbn [andb] in G.
      destruct T as (TA & TB & _). rewrite TA, TB in G.
      assert (V : xval (xabs (xsub (XF (g (l_a s))) (XF (g (l_b s))))) = Some (Rabs (g (l_a s) - g (l_b s))))
        by (apply xval_xabs, xval_xsub; reflexivity).
      rewrite (xleb_val (XF l_eps) _ l_eps _ eq_refl V) in G. apply Rleb_false in G. exact G.
Qed.

(** The valley (l - 1/2)^2: the end points tie, the loop is never entered. *)
Definition valley (k : nat) (l : R) : option (bool * xd) := Some (true, XF ((l - / 2) * (l - / 2))).

Lemma valley_select : exists log, LambdaAutoSelection valley = LChosen (/ 2) log /\ In 0 log.
Proof.
  assert (E : forall n, l_loop (S n) valley (l_init (true, XF ((0 - / 2) * (0 - / 2))) (true, XF ((1 - / 2) * (1 - / 2)))
      (true, XF ((0 + (1 - l_ratio) * (1 - 0) - / 2) * (0 + (1 - l_ratio) * (1 - 0) - / 2)))
      (true, XF ((0 + l_ratio * (1 - 0) - / 2) * (0 + l_ratio * (1 - 0) - / 2)))) =
     LDone (l_init (true, XF ((0 - / 2) * (0 - / 2))) (true, XF ((1 - / 2) * (1 - / 2)))
      (true, XF ((0 + (1 - l_ratio) * (1 - 0) - / 2) * (0 + (1 - l_ratio) * (1 - 0) - / 2)))
      (true, XF ((0 + l_ratio * (1 - 0) - / 2) * (0 + l_ratio * (1 - 0) - / 2))))).
  { intros n. cbn [l_loop]. set (s := l_init _ _ _ _).
    assert (G : l_guard s = false); [|rewrite G; reflexivity].
    unfold l_guard. apply andb_false_intro1, andb_false_intro2.
    unfold s, l_init; cbn [l_fa l_fb snd].
    assert (V : xval (xabs (xsub (XF ((0 - / 2) * (0 - / 2))) (XF ((1 - / 2) * (1 - / 2))))) =
                Some (Rabs ((0 - / 2) * (0 - / 2) - (1 - / 2) * (1 - / 2))))
      by (apply xval_xabs, xval_xsub; reflexivity).
    rewrite (xleb_val (XF l_eps) _ l_eps _ eq_refl V). apply Rleb_false.
    replace ((0 - / 2) * (0 - / 2) - (1 - / 2) * (1 - / 2)) with 0 by lra. rewrite Rabs_R0.
    unfold l_eps. apply Rinv_0_lt_compat, pow_lt; lra. }
  eexists; split.
  - unfold LambdaAutoSelection; cbv zeta. unfold valley at 1 2 3 4. specialize (E 100%nat).
    unfold l_init in E; cbn [fst snd] in E. rewrite E. unfold l_finish, l_all.
    cbn [l_oka l_okb l_okp l_okq andb l_a l_b l_log]. f_equal. lra.
  - simpl. tauto.
Qed.

(** ** predict *)

Lemma predict_ignores : forall B weight (regress : list xd -> outcome B) d cs ts locs locs',
  m_rows locs = m_rows locs' ->
  gtwr_predict B weight regress d cs ts locs = gtwr_predict B weight regress d cs ts locs'.
Proof. intros B weight regress d cs ts locs locs' E. unfold gtwr_predict. rewrite E. reflexivity. Qed.

Lemma each_throw : forall {A C} (g : A -> outcome C) l a, In a l -> (forall b, In b l -> g b <> UB) ->
  g a = Throw -> each g l = Throw.
Proof.
  intros A C g l a; induction l as [|b l IH]; intros I U T; [contradiction|]. simpl.
  destruct (g b) as [c| |] eqn:E; [|reflexivity|exfalso; apply (U b (or_introl eq_refl) E)].
  destruct I as [->|I]; [congruence|]. cbn [obind]. rewrite IH; auto. intros b' I'; apply U; right; exact I'.
Qed.

Lemma st_made : forall d cs ts d' o, st_makeParameter d [PMat cs; PMat cs; PVec ts; PVec ts] = (d', o) ->
  match o with Ok _ => c_par (s_spatial d') = Some (points cs, points cs) | Throw => True | UB => False end.
Proof.
  intros d cs ts d' o E. cbn [st_makeParameter get_mat get_vec] in E.
  destruct (Nat.eqb (m_rows cs) (m_rows cs) && Nat.eqb (m_rows cs) (length ts) && Nat.eqb (length ts) (length ts))%bool;
    [|injection E as <- <-; exact I].
  cbn [crs_makeParameter get_mat] in E.
  destruct (Nat.eqb (m_cols cs) 2 && Nat.eqb (m_cols cs) 2)%bool; injection E as <- <-; [reflexivity|exact I].
Qed.

Lemma vzip_not_ub : forall f a b, vzip f a b <> UB.
Proof.
  induction a; intros [|y b]; simpl; try discriminate. specialize (IHa b).
  destruct (vzip f a0 b); simpl; congruence.
Qed.
Lemma crs_distance_not_ub : forall c i, crs_distance c i <> UB.
Proof. intros c i; unfold crs_distance. destruct (c_par c) as [[fp dp]|]; [|discriminate]. destruct (nth_error fp i); discriminate. Qed.
Lemma st_distance_not_ub : forall d i, st_distance d i <> UB.
Proof.
  intros d i. unfold st_distance. pose proof (crs_distance_not_ub (s_spatial d) i).
  destruct (crs_distance (s_spatial d) i) as [s| |]; cbn [obind]; try congruence.
  assert (forall o, onedim_distance o i <> UB /\ onedim_noAbs o i <> UB).
  { intros o; unfold onedim_distance, onedim_noAbs; destruct o as [[fp dp]|]; [destruct (nth_error fp i)|]; split; discriminate. }
  destruct (H0 (s_temporal d)) as [H1 H2].
  destruct (Rltb _ _); [destruct (onedim_distance _ _)|destruct (onedim_noAbs _ _)]; cbn [obind]; try congruence; apply vzip_not_ub.
Qed.

Lemma predict_more : forall B weight (regress : list xd -> outcome B) d cs ts locs,
  (forall w, regress w <> UB) -> (m_rows cs < m_rows locs)%nat ->
  gtwr_predict B weight regress d cs ts locs = Throw.
Proof.
  intros B weight regress d cs ts locs U L. unfold gtwr_predict.
  destruct (st_makeParameter d _) as [d' o] eqn:E. pose proof (st_made _ _ _ _ _ E) as M.
  destruct o as [[]| |]; [|reflexivity|contradiction]. cbn [obind].
  apply (each_throw _ _ (m_rows cs)).
  - apply in_seq; lia.
  - intros i _. pose proof (st_distance_not_ub d' i). destruct (st_distance d' i); cbn [obind]; try congruence; auto.
  - unfold st_distance, crs_distance. rewrite M.
    replace (nth_error (points cs) (m_rows cs)) with (@None point); [reflexivity|].
    symmetry; apply nth_error_None. unfold points. rewrite map_length, seq_length. lia.
Qed.

(** ** Upper end of the bandwidth search *)

Lemma omax_loop_val : forall rows rrows, Forall2 (fun o r => exists v, o = Ok v /\ xvals v r) rows rrows ->
  Forall (fun r => r <> []) rrows -> forall acc a, xval acc = Some a ->
  exists m r, omax_loop rows acc = Ok m /\ xval m = Some r /\ a <= r /\
    (forall l s, In l rrows -> In s l -> s <= r).
Proof.
  intros rows rrows F; induction F as [|o r rows rrows [v [-> V]] F IH]; intros N acc a A.
  - exists acc, a; repeat split; auto; [lra|intros l s []].
  - inversion N; subst. destruct (vmax_val v r V H1) as (m1 & r1 & E1 & V1 & I1 & B1).
    cbn [omax_loop obind]. rewrite E1. cbn [obind]. rewrite (xltb_val _ _ _ _ A V1).
    destruct (Rltb a r1) eqn:C; [apply Rltb_true in C|apply Rltb_false in C].
    + destruct (IH H2 m1 r1 V1) as (m & r0 & E & W & L & Bd). exists m, r0; repeat split; auto; [lra|].
      intros l s [->|Il] Is; [specialize (B1 s Is); lra|eauto].
    + destruct (IH H2 acc a A) as (m & r0 & E & W & L & Bd). exists m, r0; repeat split; auto.
      intros l s [->|Il] Is; [specialize (B1 s Is); lra|eauto].
Qed.

Lemma st_rows_map : forall d n i, st_rows d n i = map (st_distance d) (seq i n).
Proof. induction n; intros i; simpl; [reflexivity|]. rewrite IHn; reflexivity. Qed.

Lemma entries_xvals : forall v n, length v = n -> (forall i, (i < n)%nat -> exists x r, nth_error v i = Some x /\ xval x = Some r) ->
  exists rs, xvals v rs.
Proof.
  induction v as [|x v IH]; intros n L H; [exists []; reflexivity|].
  destruct n; [discriminate|]. injection L as L.
  destruct (H 0%nat ltac:(lia)) as (x' & r & E & V). injection E as <-.
  destruct (IH n L) as [rs R0]. { intros i Li. apply (H (S i)). lia. }
  exists (r :: rs). apply xvals_cons; assumption.
Qed.

Lemma spacetime_par : forall lambda pts ts, length pts = length ts -> 
  s_par (spacetime lambda pts pts ts ts) = Some (length pts).
Proof.
  intros lambda pts ts L. unfold spacetime. cbn [st_makeParameter get_mat get_vec coords m_rows].
  rewrite <- L, !Nat.eqb_refl. reflexivity.
Qed.

Lemma spacetime_length : forall lambda pts ts f v, 0 <= lambda <= 1 - / 10 ^ 16 -> length pts = length ts ->
  (f < length pts)%nat ->
  st_distance (spacetime lambda pts pts ts ts) f = Ok v -> length v = length pts.
Proof.
  intros lambda pts ts f v L01 L Lf E.
  assert (T16 : 0 < / 10 ^ 16) by (apply Rinv_0_lt_compat, pow_lt; lra).
  rewrite (st_api lambda pts pts ts ts (length pts)) in E by congruence.
  destruct (nth_error pts f) as [o|] eqn:Eo; [|apply nth_error_None in Eo; lia].
  destruct (nth_error ts f) as [t|] eqn:Et; [|apply nth_error_None in Et; lia].
  destruct (C18_main lambda pts pts ts ts f o t ltac:(lra) ltac:(right; lra) L Eo Et) as (v' & E' & Lv & _).
  congruence.
Qed.

Lemma upper_huge : forall lambda pts ts i j ti tj, 0 <= lambda -> lambda <= 1 - / 10 ^ 16 ->
  length pts = length ts -> nth_error ts i = Some ti -> nth_error ts j = Some tj -> ti < tj ->
  exists u r, gtwr_upper (spacetime lambda pts pts ts ts) = Ok u /\ xval u = Some r /\ 10 ^ 13 <= r.
Proof.
  intros lambda pts ts i j ti tj L0 L1 LL Ei Ej T.
  assert (T16 : 0 < / 10 ^ 16) by (apply Rinv_0_lt_compat, pow_lt; lra).
  set (d := spacetime lambda pts pts ts ts).
  assert (PT : forall k, (k < length pts)%nat -> exists o, nth_error pts k = Some o).
  { intros k Lk. destruct (nth_error pts k) eqn:E; [eauto|apply nth_error_None in E; lia]. }
  assert (TT : forall k, (k < length pts)%nat -> exists o, nth_error ts k = Some o).
  { intros k Lk. destruct (nth_error ts k) eqn:E; [eauto|apply nth_error_None in E; lia]. }
  assert (ROW : forall f, (f < length pts)%nat -> exists v rs, st_distance d f = Ok v /\ xvals v rs /\ length v = length pts).
  { intros f Lf. destruct (PT f Lf) as [o Eo]. destruct (TT f Lf) as [tf Et].
    assert (ENT : forall k, (k < length pts)%nat -> exists r, entry (st_distance d f) k r).
    { intros k Lk. destruct (PT k Lk) as [p Ep]. destruct (TT k Lk) as [t Etk].
      destruct (C18_api_main lambda pts pts ts ts (length pts) f k o p tf t) as [r [E _]]; auto; try lra. eauto. }
    destruct (ENT f Lf) as [r0 [v [x [Ev _]]]]. exists v.
    pose proof (spacetime_length lambda pts ts f v (conj L0 L1) LL Lf Ev) as Lv.
    destruct (entries_xvals v (length pts) Lv) as [rs V].
    { intros k Lk. destruct (ENT k Lk) as [r [v' [x' [E' [N' X']]]]]. assert (v' = v) by congruence. subst. eauto. }
    eauto. }
  assert (Li : (i < length pts)%nat) by (rewrite LL; apply nth_error_Some; congruence).
  assert (Lj : (j < length pts)%nat) by (rewrite LL; apply nth_error_Some; congruence).
  assert (F2 : exists rrows, Forall2 (fun o r => exists v, o = Ok v /\ xvals v r) (map (st_distance d) (seq 0 (length pts))) rrows
               /\ Forall (fun r => r <> []) rrows).
  { assert (G : forall l, (forall f, In f l -> (f < length pts)%nat) ->
      exists rrows, Forall2 (fun o r => exists v, o = Ok v /\ xvals v r) (map (st_distance d) l) rrows
               /\ Forall (fun r => r <> []) rrows).
    { induction l as [|f l IH]; intros Hl; [exists []; split; constructor|].
      destruct IH as [rr [A B]]. { intros; apply Hl; right; assumption. }
      destruct (ROW f (Hl f (or_introl eq_refl))) as [v [rs [E [V Lv]]]].
      exists (rs :: rr). split; constructor; eauto. intros ->. apply xvals_nil_inv in V. subst; simpl in Lv; lia. }
    apply G. intros f If. apply in_seq in If; lia. }
  destruct F2 as [rrows [F2 NE]].
  destruct (omax_loop_val _ _ F2 NE (XF 0) 0 eq_refl) as (u & r & E & V & _ & Bd).
  exists u, r. split; [|split; [exact V|]].
  - unfold gtwr_upper, st_maxDistance. unfold d. rewrite spacetime_par by exact LL. fold d. rewrite st_rows_map. exact E.
  - destruct (PT i Li) as [oi Eoi]. destruct (PT j Lj) as [oj Eoj].
    destruct (C18_api_main lambda pts pts ts ts (length pts) i j oi oj ti tj) as [rr [[v [x [Ev [Nx Vx]]]] [Fut _]]]; auto; try lra.
    rewrite (Fut ltac:(lra) T) in *.
    assert (I2 : exists rs, In rs rrows /\ xvals v rs).
    { clear - F2 Ev Li. fold d in Ev.
      assert (G : forall l rrows, Forall2 (fun o r => exists v, o = Ok v /\ xvals v r) (map (st_distance d) l) rrows ->
        In i l -> exists rs, In rs rrows /\ xvals v rs).
      { induction l as [|f l IH]; intros rr F If; [contradiction|]. simpl in F. inversion F as [|? r ? rr' [v' [E' V']] F']; subst.
        destruct If as [->|If].
        - exists r; split; [left; reflexivity|]. assert (v' = v) by congruence. subst; exact V'.
        - destruct (IH rr' F' If) as [rs [A B]]. exists rs; split; [right; exact A|exact B]. }
      apply (G _ _ F2). apply in_seq; lia. }
    destruct I2 as [rs [Ir Vr]]. apply (Bd rs _ Ir).
    unfold xvals in Vr. apply (map_nth_error xval) in Nx. rewrite Vr in Nx. rewrite nth_error_map in Nx.
    destruct (nth_error rs j) as [q|] eqn:Eq; [|discriminate]. simpl in Nx.
    apply nth_error_In in Eq. assert (q = 10 ^ 13) by congruence. subst; exact Eq.
Qed.

(** ** Concrete runs *)

Lemma each_nth : forall {A C} (g : A -> outcome C) l r i a, each g l = Ok r -> nth_error l i = Some a ->
  exists c, g a = Ok c /\ nth_error r i = Some c.
Proof.
  intros A C g; induction l as [|b l IH]; intros r i a E N; [destruct i; discriminate|]. simpl in E.
  destruct (g b) as [c| |] eqn:G; try discriminate. cbn [obind] in E.
  destruct (each g l) as [cs| |]; try discriminate. injection E as <-.
  destruct i; simpl in N; [injection N as <-; exists c; auto|]. simpl. apply IH; auto.
Qed.
Lemma each_length : forall {A C} (g : A -> outcome C) l r, each g l = Ok r -> length r = length l.
Proof.
  intros A C g; induction l as [|b l IH]; intros r E; simpl in E; [injection E as <-; reflexivity|].
  destruct (g b) as [c| |]; try discriminate. cbn [obind] in E.
  destruct (each g l) as [cs| |] eqn:Q; try discriminate. injection E as <-. simpl. rewrite (IH cs); auto.
Qed.

Lemma predict_own : forall B weight (regress : list xd -> outcome B) lambda cs ts r,
  length cs = length ts ->
  gtwr_predict B weight regress (st_new (crs_new false) onedim_new lambda) (coords cs) ts (coords cs) = Ok r ->
  length r = length cs /\
  forall i c, nth_error r i = Some c -> calibrated weight regress lambda cs ts cs i (Ok c).
Proof.
  intros B weight regress lambda cs ts r L E. unfold gtwr_predict in E.
  destruct (st_makeParameter _ _) as [d' o] eqn:Q. 
  assert (Hd : d' = spacetime lambda cs cs ts ts) by (unfold spacetime; rewrite Q; reflexivity).
  destruct o as [[]| |]; try discriminate. cbn [obind] in E.
  pose proof (each_length _ _ _ E) as Lr. rewrite seq_length in Lr. split; [exact Lr|].
  intros i c N. assert (Li : (i < length cs)%nat) by (cbn [m_rows coords] in Lr; rewrite <- Lr; apply nth_error_Some; congruence).
  destruct (each_nth _ _ _ i i E) as [c' [G N']].
  - rewrite (nth_error_nth' _ 0%nat) by (rewrite seq_length; exact Li). rewrite seq_nth by exact Li. reflexivity.
  - assert (c' = c) by congruence. subst c'. unfold calibrated. rewrite <- Hd.
    destruct (st_distance d' i) as [v| |]; try discriminate. exists v; split; [reflexivity|]. symmetry; exact G.
Qed.

(** One observation at the origin, one location at (1,0), lambda 1, the "regression" returns its weights. *)
Lemma predict_witness : exists r,
  gtwr_predict (list xd) (fun d => d) Ok (st_new (crs_new false) onedim_new 1) (coords [(0, 0)]) [0] (coords [(1, 0)]) = Ok r /\
  ~ exists c, nth_error r 0 = Some c /\ calibrated (fun d => d) Ok 1 [(0, 0)] [0] [(1, 0)] 0 (Ok c).
Proof.
  rewrite (predict_ignores _ _ _ _ _ _ (coords [(1, 0)]) (coords [(0, 0)]) eq_refl).
  assert (exists r, gtwr_predict (list xd) (fun d => d) Ok (st_new (crs_new false) onedim_new 1) (coords [(0, 0)]) [0]
                      (coords [(0, 0)]) = Ok r) as [r E].
  { destruct (C18_main 1 [(0,0)] [(0,0)] [0] [0] 0 (0,0) 0 ltac:(lra) ltac:(left; reflexivity) eq_refl eq_refl eq_refl)
      as (v & E & _). exists [v]. unfold gtwr_predict.
    pose proof (st_makeParameter_Ok 1 [(0,0)] [(0,0)] [0] [0] 1 eq_refl eq_refl eq_refl eq_refl) as M.
    pose proof (st_api 1 [(0,0)] [(0,0)] [0] [0] 1 eq_refl eq_refl eq_refl eq_refl) as D. unfold spacetime in D.
    destruct (st_makeParameter _ _) as [d' o]. simpl in M, D. subst o d'. cbn [obind coords m_rows length seq each].
    simpl length in E. rewrite E. reflexivity. }
  exists r; split; [exact E|].
  destruct (predict_own _ _ _ 1 [(0,0)] [0] r eq_refl E) as [_ P].
  intros [c [N [v' [E' C']]]]. destruct (P 0%nat c N) as [v [E0 C0]]. injection C0 as ->. injection C' as <-.
  destruct (C18_api_main 1 [(0,0)] [(0,0)] [0] [0] 1 0 0 (0,0) (0,0) 0 0 ltac:(lra) ltac:(left; reflexivity)
     eq_refl eq_refl eq_refl eq_refl eq_refl eq_refl eq_refl eq_refl) as [r1 [[w [x [A [B C]]]] [_ [_ [H1 _]]]]].
  destruct (C18_api_main 1 [(1,0)] [(0,0)] [0] [0] 1 0 0 (1,0) (0,0) 0 0 ltac:(lra) ltac:(left; reflexivity)
     eq_refl eq_refl eq_refl eq_refl eq_refl eq_refl eq_refl eq_refl) as [r2 [[w' [x' [A' [B' C']]]] [_ [_ [H2 _]]]]].
  assert (w = v) by congruence. assert (w' = v) by congruence. subst w w'.
  assert (x = x') by congruence. subst x'. assert (r1 = r2) by congruence.
  rewrite (H1 eq_refl), (H2 eq_refl) in H. unfold euclid in H. cbn [fst snd] in H.
  replace ((0 - 0) * (0 - 0) + (0 - 0) * (0 - 0)) with 0 in H by ring.
  match type of H with sqrt ?a = sqrt ?b => assert (Hab : a = b) end.
  { apply sqrt_inj; [simpl; lra|simpl; nra|exact H]. }
  simpl in Hab. lra.
Qed.

Lemma peak_unimodal : unimodal (fun l => 1 - (l - / 3) * (l - / 3)) (/ 3).
Proof. split; intros x y H1 H2 H3; nra. Qed.

Lemma best_refuted : exists (g : R -> R) lambda log l,
  LambdaAutoSelection (fun _ x => Some (true, XF (g x))) = LChosen lambda log /\ In l log /\ g lambda < g l.
Proof.
  destruct valley_select as [log [E I]].
  exists (fun l => (l - / 2) * (l - / 2)), (/ 2), log, 0. split; [exact E|]. split; [exact I|lra].
Qed.

Lemma requested_refuted : exists B weight (regress : list xd -> outcome B) lambda cs ts locs r,
  length cs = length ts /\ length locs = length ts /\
  gtwr_predict B weight regress (st_new (crs_new false) onedim_new lambda) (coords cs) ts (coords locs) = Ok r /\
  ~ exists c, nth_error r 0 = Some c /\ calibrated weight regress lambda cs ts locs 0 (Ok c).
Proof.
  destruct predict_witness as [r [E N]].
  exists (list xd), (fun d => d), Ok, 1, [(0, 0)], [0], [(1, 0)], r. auto.
Qed.

Lemma upper_case : exists u r, gtwr_upper (spacetime (/ 2) [(0, 0); (1, 0)] [(0, 0); (1, 0)] [0; 1] [0; 1]) = Ok u /\
  xval u = Some r /\ 10 ^ 13 <= r.
Proof.
  apply (upper_huge _ _ _ 0 1 0 1); try reflexivity; try lra.
Qed.

Lemma phi100 : phi ^ 100 / 2 < / 10 ^ 20.
Proof.
  assert (P : 0 < phi < 62 / 100) by (pose proof ratio_bounds as RB; change phi with l_ratio; lra).
  assert (P10 : phi ^ 10 < 84 / 10000).
  { apply Rle_lt_trans with ((62 / 100) ^ 10); [apply pow_incr; lra|simpl; lra]. }
  replace (phi ^ 100) with ((phi ^ 10) ^ 10) by (rewrite <- pow_mult; reflexivity).
  assert (0 <= phi ^ 10) by (apply pow_le; lra).
  apply Rle_lt_trans with ((84 / 10000) ^ 10 / 2).
  { apply Rmult_le_compat_r; [lra|]. apply pow_incr; lra. }
  simpl. lra.
Qed.
