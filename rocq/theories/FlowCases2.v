(** More proofs about whole runs of FlowModel.v. *)
From Coq Require Import Reals Bool List Arith ZArith Permutation Lia Lra.
From Verif Require Import Outcome XReal XRealFacts Sums KernelModel GoldModel GoldSpec GoldProofs GoldProofs2 VarModel VarSpec VarProofs
  FlowModel FlowProofs FlowCases.
Import ListNotations.
Local Open Scope nat_scope.

Section P.
Variables C B : Type.
Notation object := (object C).
Notation world := (world C B).
Implicit Types (W : world) (o : object).

(** ** C121: the reported models *)
Lemma set_fields_vlist W o o' : bw_stage W o = Go o' -> o_vlist o' = o_vlist o.
Proof. intros E. apply (bw_fields C B W o o'); auto. Qed.

Lemma select_reported W srt o o' : sorter srt -> select_stage W srt o = Go o' -> o_terminated o' = false ->
  forall vs v, In (vs, v) (o_vlist o') ->
  NoDup vs /\ (forall i, In i vs -> start C o <= i < length (o_x o)) /\
  exists k xs a, map Some xs = map (nth_error (o_x o)) ((if o_intercept o then [0] else []) ++ vs) /\
    w_vfit W k xs (mkWeight (wkernel (o_weight o)) (wadaptive (o_weight o)) DBL_MAX) = (false, a) /\
    v = match a with Some z => z | None => XF DBL_MAX end.
Proof.
  intros So E T vs v H.
  destruct (select_inv _ _ _ _ _ _ So E) as (sel & rep & vl & x' & V & _ & _ & _ & _ & -> & L). cbn in H, T.
  destruct rep as [rep|]; [|discriminate]. cbn in T.
  destruct (rep_in _ _ _ _ _ _ So V) as (ms & S1 & P & _ & _).
  destruct (search_spec (var_criterion W o) (candidates o)) as (s & ms' & T1 & [T2 _] & T3).
  rewrite S1 in T1. inversion T1; subst s ms'. clear T1. destruct (T3 eq_refl) as [F _].
  assert (R : forall idx v, In (idx, v) rep -> NoDup idx /\ (forall i, In i idx -> i < length (candidates o))).
  { intros idx u J. apply (Permutation_in _ P) in J.
    destruct (forward_idx _ _ _ F (seq_NoDup _ _) idx u J) as [N Inc]. split; auto.
    intros i K. apply Inc in K. apply in_seq in K. lia. }
  destruct (named_list_ok (candidates o) rep) as (r & R1 & R2); [intros idx u J; apply (R idx u J)|].
  rewrite L in R1. inversion R1; subst r. apply R2 in H as (idx & J & Nm).
  assert (In' : incl vs (candidates o)) by (eapply named_in; eauto).
  assert (V0 : candidates o <> []) by (intros Q; rewrite Q, vs_none_empty in V; discriminate).
  split; [eapply named_nodup; eauto; [apply cand_nodup|apply (R idx v J)]|].
  split; [intros i I; apply cand_in; auto|].
  apply (Permutation_in _ P) in J. apply In_nth_error in J as [k J].
  destruct (T2 k idx v J) as (vs' & N' & Sv & St). cbn [Nat.add] in *.
  rewrite (named_fun _ _ _ _ N' Nm) in *. clear N' vs'.
  assert (Fk : fst (var_criterion W o k vs) = true).
  { destruct (fst (var_criterion W o k vs)) eqn:Z; auto. destruct St as [St _]. destruct (St eq_refl); discriminate. }
  unfold var_criterion in Fk, Sv.
  destruct (w_vfit W k (picked (o_x o) (index2uvec vs (o_intercept o)))
    (mkWeight (wkernel (o_weight o)) (wadaptive (o_weight o)) DBL_MAX)) as [st a] eqn:Wf.
  cbn in Fk, Sv. apply negb_true_iff, orb_false_iff in Fk as [F1 F2]. subst st.
  rewrite F1 in Sv. cbn in Sv. exists k, (picked (o_x o) (index2uvec vs (o_intercept o))), a.
  split; [apply picked_ok; apply idx_range; auto|]. split; auto.
Qed.

Lemma C121_reported_main W srt o v o' : sorter srt -> o_auto_vars o = true -> w_stop0 W = false ->
  flow_fit W srt o = Returned v o' -> o_terminated o' = false ->
  forall vs u, In (vs, u) (o_vlist o') ->
  NoDup vs /\ (forall i, In i vs -> (if o_intercept o then 1 else 0) <= i < length (o_x o)) /\
  exists k xs a, map Some xs = map (nth_error (o_x o)) ((if o_intercept o then [0] else []) ++ vs) /\
    w_vfit W k xs (mkWeight (wkernel (o_weight o)) (wadaptive (o_weight o)) DBL_MAX) = (false, a) /\
    u = match a with Some z => z | None => XF DBL_MAX end.
Proof.
  intros So A0 S00 H T.
  assert (K : exists o1, select_stage W srt o = Go o1 /\ o_vlist o' = o_vlist o1 /\ o_terminated o1 = false).
  { revert H. destruct (run_fit C B W srt o) as [S0|S0 A E|o1 S0 A E|o1 S0 A E S1|o1 S0 AV S1 Ab E|o1 o2 S0 AV S1 Ab E|
      o1 o2 S0 AV S1 Ab E S2|o1 o2 S0 AV S1 AB S2]; intros H; try discriminate; try congruence;
      try (inversion H; subst; discriminate).
    destruct AV as [[A _]|[_ E]]; [congruence|]. exists o1. split; auto.
    destruct (w_final W (o_x o2) (o_weight o2)) as [[b st]| |]; inversion H; subst. cbn in T.
    apply orb_false_iff in T as [T _]. cbn.
    destruct AB as [[_ ->]|[_ E2]]; auto. destruct (bw_fields C B W o1 o2) as (_ & _ & Z & Y & _); auto. split; auto.
    destruct (o_terminated o1); auto. rewrite Y in T; auto. }
  destruct K as (o1 & E & V & T1). rewrite V. intros vs u I.
  exact (select_reported W srt o o1 So E T1 vs u I).
Qed.

(** ** C122: the reported bandwidth *)
Lemma bw_answers W o k w : exists ok v, bw_criterion W o k w = Answer ok v /\ v <> XN.
Proof.
  unfold bw_criterion. destruct (w_bfit W k (o_x o) w) as [st a].
  eexists _, _. split; [reflexivity|]. destruct a as [z|]; [|discriminate].
  destruct (negb (o_terminated o || st)); cbn; [|discriminate]. destruct z; cbn; discriminate.
Qed.
Lemma bw_no_nan W o : no_nan (bw_criterion W o).
Proof. intros k w ok v E. destruct (bw_answers W o k w) as (ok' & v' & E' & N). congruence. Qed.
Lemma bw_never W o : never_raises (bw_criterion W o).
Proof. intros k w E. destruct (bw_answers W o k w) as (ok' & v' & E' & N). congruence. Qed.

Definition doubles W : Prop := forall k x w s r, w_bfit W k x w = (s, Some (XF r)) -> (r <= DBL_MAX)%R.
Definition repeatable W : Prop := forall k k' x w, w_bfit W k x w = w_bfit W k' x w.

Lemma fresh_starts crit w lo up wr : rresult (optimize crit w lo up []) = Fresh wr -> starts_well crit w lo up.
Proof.
  destruct (optimize_cases crit w lo up []) as [| | | | |v1 v2 st A Bq M P G S|]; cbn; try discriminate.
  intros _. exists v1, v2. split; auto. split; auto. intros [-> ->].
  assert (is_max_dbl (XF DBL_MAX) = true) by (apply is_max_dbl_eq; auto). rewrite H in M. discriminate.
Qed.
Lemma fresh_logs crit w lo up wr w1 : rresult (optimize crit w lo up []) = Fresh wr ->
  w1 = first_weight w lo up \/ w1 = second_weight w lo up ->
  exists k v, crit k w1 = Answer true v /\ evaluated (optimize crit w lo up []) w1 v.
Proof.
  destruct (optimize_cases crit w lo up []) as [| | | | |v1 v2 st A Bq M P G S|]; cbn; try discriminate.
  intros _ [->| ->].
  - exists 0, v1. split; auto. unfold evaluated; cbn. eapply passes_log; eauto. right; left; auto.
  - exists 1, v2. split; auto. unfold evaluated; cbn. eapply passes_log; eauto. left; auto.
Qed.

Lemma bw_fresh_list W o wr : doubles W -> repeatable W ->
  let r := optimize (bw_criterion W o) (o_weight o) (lower_bound o) (upper_bound W o) [] in
  rresult r = Fresh wr ->
  (forall x u, In (x, u) (bandwidth_criterion (rmap r)) ->
     w_bfit W 0 (o_x o) (mkWeight (wkernel (o_weight o)) (wadaptive (o_weight o)) x) = (false, Some u) /\ xfinite u = true) /\
  exists v, In (wvalue wr, v) (bandwidth_criterion (rmap r)) /\
    forall x u, In (x, u) (bandwidth_criterion (rmap r)) -> not_greater v u.
Proof.
  intros Db Rp r F.
  assert (Cs : consistent (bw_criterion W o)).
  { intros k k' w ok ok' v v' A1 A2. unfold bw_criterion in *. rewrite (Rp k' k) in A2.
    destruct (w_bfit W k (o_x o) w). congruence. }
  pose proof (fresh_starts _ _ _ _ _ F) as Sw.
  destruct (C27_main _ _ _ _ Cs Sw) as [_ L]. fold r in L.
  pose proof (log_answered _ _ _ _ [] Sw) as La. cbn zeta in La. fold r in La.
  destruct (C21_main _ _ _ _ _ _ (bw_no_nan W o) F) as (v & Ev & Best). fold r in Ev, Best.
  split.
  - intros x u I. apply L in I as (w' & E & <- & Va). destruct (La w' u E) as ((K1 & K2) & k & ok & A).
    destruct w' as [kk aa xx]. cbn in K1, K2. subst. cbn. unfold bw_criterion in A. rewrite (Rp k 0) in A.
    destruct (w_bfit W 0 (o_x o) {| wkernel := wkernel (o_weight o); wadaptive := wadaptive (o_weight o); wvalue := xx |}) as [st a].
    inversion A as [[A1 A2]]. clear A.
    assert (Nv : XF DBL_MAX <> u). { intros <-. unfold valid in Va. rewrite xltb_irrefl in Va. discriminate. }
    destruct a as [z|]; [|congruence]. destruct (negb (o_terminated o || st) && xfinite z) eqn:Q; [|congruence].
    apply andb_true_iff in Q as [Q1 Q2]. apply negb_true_iff, orb_false_iff in Q1 as [_ ->]. subst; auto.
  - exists v. assert (Va : valid v).
    { destruct Sw as (v1 & v2 & A1 & A2 & Nm).
      destruct (fresh_logs _ _ _ _ _ _ F (or_introl eq_refl)) as (k1 & u1 & B1 & E1).
      destruct (fresh_logs _ _ _ _ _ _ F (or_intror eq_refl)) as (k2 & u2 & B2 & E2).
      assert (u1 = v1) as -> by (eapply Cs; eauto). assert (u2 = v2) as -> by (eapply Cs; eauto).
      assert (Small : forall k w u, bw_criterion W o k w = Answer true u -> u <> XF DBL_MAX -> xltb u (XF DBL_MAX) = true).
      { intros k w u A N. unfold bw_criterion in A. destruct (w_bfit W k (o_x o) w) as [st a] eqn:Wb.
        injection A as A3 A4. rewrite A3 in A4. cbn in A4. clear A3. destruct a as [z|]; [|congruence]. destruct z as [q| |ng|]; cbn in A4; subst u; try congruence.
        - cbn. apply Rltb_true. pose proof (Db _ _ _ _ _ Wb). assert (q <> DBL_MAX) by congruence. lra.
        - cbn. apply Rltb_true. pose proof dbl_max_big. lra. }
      assert (Lt : forall u, not_greater v u -> xltb u (XF DBL_MAX) = true -> valid v).
      { intros u (N1 & N2 & N3) Hu. unfold valid. destruct v as [a| |[]|], u as [b| |[]|]; cbn in *; try congruence; auto;
          repeat match goal with H : Rltb _ _ = true |- _ => apply Rltb_true in H | H : Rltb _ _ = false |- _ => apply Rltb_false in H end;
          apply Rltb_true; lra. }
      assert (D : v1 <> XF DBL_MAX \/ v2 <> XF DBL_MAX).
      { destruct v1 as [a| |[]|]; try (left; discriminate). destruct (Req_dec a DBL_MAX); [subst|left; congruence].
        right. intros ->. apply Nm; auto. }
      destruct D as [D|D]; [apply (Lt v1)|apply (Lt v2)]; try (eapply Best; eassumption); eapply Small; eauto. }
    split.
    + apply L. exists wr. auto.
    + intros x u I. apply L in I as (w' & E & _). eapply Best; eauto.
Qed.

Lemma C122_bandwidth_main W srt o b o' : sorter srt -> doubles W -> repeatable W ->
  flow_fit W srt o = Returned (Coefficients b) o' -> o_auto_bw o = true -> o_terminated o' = false ->
  wkernel (o_weight o') = wkernel (o_weight o) /\ wadaptive (o_weight o') = wadaptive (o_weight o) /\
  (forall x u, In (x, u) (o_blist o') ->
     w_bfit W 0 (o_x o') (mkWeight (wkernel (o_weight o)) (wadaptive (o_weight o)) x) = (false, Some u) /\ xfinite u = true) /\
  exists v, In (wvalue (o_weight o'), v) (o_blist o') /\ forall x u, In (x, u) (o_blist o') -> not_greater v u.
Proof.
  intros So Db Rp H Ab0 T. revert H.
  destruct (run_fit C B W srt o) as [S0|S0 A E|o1 S0 A E|o1 S0 A E S1|o1 S0 AV S1 Ab E|o1 o2 S0 AV S1 Ab E|
      o1 o2 S0 AV S1 Ab E S2|o1 o2 S0 AV S1 AB S2]; intros H; try discriminate.
  destruct (w_final W (o_x o2) (o_weight o2)) as [[b' st]| |]; inversion H; subst. cbn in T. cbn.
  apply orb_false_iff in T as [T _].
  assert (F : o_auto_bw o1 = o_auto_bw o /\ o_weight o1 = o_weight o).
  { destruct AV as [[_ ->]|[_ E]]; auto. destruct (select_inv _ _ _ _ _ _ So E) as (sel & rep & vl & x' & _ & _ & _ & _ & _ & -> & _).
    cbn. destruct rep; auto. }
  destruct F as [F1 F2]. destruct AB as [[Q _]|[_ E]]; [congruence|].
  destruct (bw_fields C B W o1 o2) as (X & _ & _ & _ & _ & _ & _ & _ & _ & _ & K1 & K2); auto. rewrite K1, K2, F2.
  split; auto. split; auto. rewrite X. unfold bw_stage in E.
  destruct (rresult (optimize (bw_criterion W o1) (o_weight o1) (lower_bound o1) (upper_bound W o1) [])) as [|wr| |] eqn:R;
    inversion E; subst; try discriminate. cbn.
  pose proof (bw_fresh_list W o1 wr Db Rp R) as L. rewrite F2 in L. rewrite F2. exact L.
Qed.

(** ** C123: repeating a fit *)
Lemma loop_weight crit w w' : wkernel w' = wkernel w -> wadaptive w' = wadaptive w ->
  forall fuel st, loop fuel crit w' st = loop fuel crit w st.
Proof.
  intros K A. assert (S : forall st, step crit w' st = step crit w st) by (intros st; unfold step; rewrite K, A; reflexivity).
  induction fuel as [|n IH]; intros st; cbn; auto. rewrite S. destruct (guard st); auto. destruct (step crit w st); auto.
Qed.
Lemma optimize_weight crit w w' lo up m : wkernel w' = wkernel w -> wadaptive w' = wadaptive w ->
  optimize crit w' lo up m = optimize crit w lo up m.
Proof.
  intros K A.
  assert (E1 : first_weight w' lo up = first_weight w lo up) by (unfold first_weight; rewrite K, A; reflexivity).
  assert (E2 : second_weight w' lo up = second_weight w lo up) by (unfold second_weight; rewrite K, A; reflexivity).
  unfold optimize. generalize 101. intros fuel. unfold init_vars. rewrite E1, E2, K, A. cbv zeta.
  destruct (crit 0 _) as [ok1 v1|]; [|reflexivity]. destruct (crit 1 _) as [ok2 v2|]; [|reflexivity].
  rewrite (loop_weight crit w w' K A). reflexivity.
Qed.

Lemma set_terminated_id o : set_terminated (o_terminated o) o = o.
Proof. destruct o; reflexivity. Qed.

Lemma bw_again W o o' : bw_stage W o = Go o' -> o_terminated o' = o_terminated o -> bw_stage W o' = Go o'.
Proof.
  intros E T. assert (F := bw_fields C B W o o' (or_introl E)).
  destruct F as (X & _ & _ & _ & _ & _ & Lo & Up & _ & _ & K & A).
  assert (Cr : bw_criterion W o' = bw_criterion W o) by (unfold bw_criterion; rewrite X, T; reflexivity).
  assert (Op : optimize (bw_criterion W o') (o_weight o') (lower_bound o') (upper_bound W o') [] =
               optimize (bw_criterion W o) (o_weight o) (lower_bound o) (upper_bound W o) []).
  { rewrite Cr. unfold lower_bound, upper_bound. rewrite Lo, Up, A. apply optimize_weight; auto. }
  unfold bw_stage in *. rewrite Op.
  destruct (rresult (optimize (bw_criterion W o) (o_weight o) (lower_bound o) (upper_bound W o) [])) eqn:R;
    inversion E; subst; cbn; f_equal; destruct o; reflexivity.
Qed.

Lemma C123_repeat_main W srt o v o' : o_auto_vars o = false -> flow_fit W srt o = Returned v o' ->
  o_terminated o' = o_terminated o -> flow_fit W srt o' = Returned v o'.
Proof.
  intros Av. unfold flow_fit, checkpoint. rewrite Av.
  destruct (w_stop0 W).
  { intros H T. inversion H; subst. cbn in T. destruct o; cbn in *; subst; reflexivity. }
  destruct (o_auto_bw o) eqn:Ab.
  - destruct (bw_stage W o) as [o1|o1|] eqn:E; try discriminate.
    destruct (bw_fields C B W o o1) as (_ & _ & _ & Tm & V1 & A1 & _); auto.
    destruct (w_stop2 W) eqn:S2.
    + intros H T. inversion H; subst. cbn in T |- *. rewrite V1, A1, Av, Ab.
      assert (Q : bw_stage W o1 = Go o1 \/ o_terminated o1 = false).
      { destruct (o_terminated o1) eqn:T1; auto. left. apply (bw_again W o); auto. congruence. }
      destruct (o_terminated o1) eqn:T1.
      * assert (set_terminated true o1 = o1) as -> by (rewrite <- T1; apply set_terminated_id).
        destruct Q as [->|Q]; [|discriminate]. rewrite <- T1, set_terminated_id. reflexivity.
      * exfalso. rewrite <- T in Tm. specialize (Tm eq_refl). discriminate.
    + destruct (w_final W (o_x o1) (o_weight o1)) as [[b st]| |] eqn:Fi; try discriminate.
      intros H T. inversion H; subst. cbn in T |- *. rewrite V1, A1, Av, Ab.
      assert (T1 : o_terminated o1 = o_terminated o).
      { destruct (o_terminated o1); cbn in T; auto. destruct (o_terminated o); auto. }
      assert (T2 : o_terminated o1 || st = o_terminated o1) by congruence. rewrite T2.
      rewrite !set_terminated_id. rewrite (bw_again W o); auto. rewrite Fi, T2, set_terminated_id. reflexivity.
  - destruct (w_final W (o_x o) (o_weight o)) as [[b st]| |] eqn:Fi; try discriminate.
    intros H T. inversion H; subst. cbn in T |- *. rewrite Av, Ab, Fi, T. destruct o; cbn in *. rewrite T. reflexivity.
Qed.

Lemma select_undef_flow W srt o : sorter srt -> o_auto_vars o = true -> w_stop0 W = false ->
  vs_optimize (var_criterion W o) srt (candidates o) (o_threshold o) = UB -> flow_fit W srt o = Undefined.
Proof.
  intros So A S H. unfold flow_fit, checkpoint. rewrite S, A.
  rewrite (proj2 (select_total _ _ W srt o So)); auto.
Qed.

Lemma C123_single_main W srt o : sorter srt -> o_auto_vars o = true -> w_stop0 W = false -> o_terminated o = false ->
  length (o_x o) = S (if o_intercept o then 1 else 0) ->
  (forall k x w, exists a, w_vfit W k x w = (false, a) /\ a <> Some XN) ->
  flow_fit W srt o = Undefined.
Proof.
  intros So A S T L V. apply select_undef_flow; auto.
  assert (Cd : exists i, candidates o = [i]).
  { unfold candidates. rewrite L. destruct (o_intercept o); cbn; eauto. }
  destruct Cd as [i ->]. apply C33_single_main; auto; intros k vs; unfold var_criterion; rewrite T;
    destruct (V k (picked (o_x o) (index2uvec vs (o_intercept o))) (mkWeight (wkernel (o_weight o)) (wadaptive (o_weight o)) DBL_MAX)) as (a & -> & N);
    cbn; auto. destruct a as [[]|]; congruence.
Qed.

Lemma C123_again_main W W2 srt o v o' : sorter srt -> o_auto_vars o = true -> w_stop0 W = false ->
  flow_fit W srt o = Returned v o' -> o_terminated o' = false -> length (o_selected o') = 1 ->
  w_stop0 W2 = false -> (forall k x w, exists a, w_vfit W2 k x w = (false, a) /\ a <> Some XN) ->
  flow_fit W2 srt o' = Undefined.
Proof.
  intros So A S H T L S2 V.
  destruct (C121_columns_main C B W srt o o' So) as [_ K]; [left; eauto|]. destruct (K A S) as (_ & _ & _ & M).
  assert (Fl : o_auto_vars o' = true /\ o_intercept o' = o_intercept o).
  { revert H. destruct (run_fit C B W srt o) as [S0|S0 A1 E|o1 S0 A1 E|o1 S0 A1 E S1|o1 S0 AV S1 Ab E|o1 o2 S0 AV S1 Ab E|
      o1 o2 S0 AV S1 Ab E S3|o1 o2 S0 AV S1 AB S3]; intros H; try discriminate; try congruence;
      try (inversion H; subst; discriminate).
    assert (Fo1 : o_auto_vars o1 = true /\ o_intercept o1 = o_intercept o).
    { destruct AV as [[Q _]|[_ E]]; [congruence|].
      destruct (select_inv _ _ _ _ _ _ So E) as (sel & rep & vl & x' & _ & _ & _ & _ & _ & -> & _). cbn. destruct rep; auto. }
    destruct (w_final W (o_x o2) (o_weight o2)) as [[b' st]| |]; inversion H; subst. cbn.
    destruct AB as [[_ ->]|[_ E]]; auto.
    destruct (bw_fields C B W o1 o2) as (_ & _ & _ & _ & V1 & _ & _ & _ & I1 & _); auto. rewrite V1, I1. auto. }
  destruct Fl as [F1 F2]. apply C123_single_main; auto.
  rewrite F2. apply (f_equal (@length _)) in M. rewrite !map_length, app_length, L in M. rewrite M.
  destruct (o_intercept o); reflexivity.
Qed.

Lemma C123_no_candidate_main W srt o : sorter srt -> o_auto_vars o = true -> w_stop0 W = false ->
  length (o_x o) <= (if o_intercept o then 1 else 0) -> flow_fit W srt o = Undefined.
Proof.
  intros So A S L. apply select_undef_flow; auto.
  assert (candidates o = []) as ->; [|apply vs_none_empty]. unfold candidates.
  destruct (length (o_x o) - (if o_intercept o then 1 else 0)) eqn:Z; [reflexivity|lia].
Qed.
End P.
