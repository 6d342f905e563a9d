(** Proofs about whole runs of FlowModel.v, and concrete runs. *)
From Coq Require Import Reals Bool List Arith ZArith Permutation Lia Lra.
From Verif Require Import Outcome XReal XRealFacts Sums KernelModel GoldModel GoldSpec GoldProofs GoldProofs2 VarModel VarSpec VarProofs
  FlowModel FlowProofs.
Import ListNotations.
Local Open Scope nat_scope.

Section P.
Variables C B : Type.
Notation object := (object C).
Notation world := (world C B).
Implicit Types (W : world) (o : object).

(** ** Inversion of a run *)
Lemma sort_groups_nothrow srt n : forall ms, sort_groups srt n ms <> Throw.
Proof.
  induction n as [|n IH]; intros ms; cbn [sort_groups]; [discriminate|].
  destruct (Nat.ltb (length ms) (S n)); [discriminate|].
  destruct (existsb _ _); [discriminate|].
  specialize (IH (skipn (S n) ms)). destruct (sort_groups srt n (skipn (S n) ms)); cbn; congruence.
Qed.
Lemma convert_nothrow vars idx : convert vars idx <> Throw.
Proof.
  induction idx as [|i t IH]; cbn; [discriminate|]. destruct (nth_error vars i); [|discriminate].
  destruct (convert vars t); cbn; congruence.
Qed.
Lemma vs_nothrow crit srt vars t : vs_optimize crit srt vars t <> Throw.
Proof.
  unfold vs_optimize. destruct (search_spec crit vars) as (s & ms & -> & _). cbn [obind].
  destruct s; [|discriminate].
  pose proof (sort_groups_nothrow srt (length vars) ms) as N.
  destruct (sort_groups srt (length vars) ms) as [r| |]; cbn [obind]; try congruence.
  destruct (select_spec t r) as [(k & b & _ & _ & -> & _)|[_ ->]]; cbn [obind]; [|discriminate].
  pose proof (convert_nothrow vars (fst b)). destruct (convert vars (fst b)); cbn; congruence.
Qed.
Lemma select_nofail W srt o o' : sorter srt -> select_stage W srt o <> Failed o'.
Proof.
  intros So. unfold select_stage.
  destruct (vs_optimize (var_criterion W o) srt (candidates o) (o_threshold o)) as [[sel rep]| |] eqn:E;
    try discriminate; [|exfalso; eapply vs_nothrow; eauto].
  pose proof (select_total _ _ W srt o So) as T. unfold select_stage in T. rewrite E in T.
  destruct (C29_main _ _ _ _ _ _ So (cand_nodup _ o) E) as [D I].
  assert (V : candidates o <> []) by (intros Q; rewrite Q, vs_none_empty in E; discriminate).
  destruct (cols_ok _ (o_x o) _ (idx_range _ o sel V I)) as (x' & X1 & X2). rewrite X1 in *.
  destruct sel; [discriminate|].
  destruct (named_list (candidates o) match rep with Some l => l | None => [] end) eqn:Z; try discriminate.
  clear T. exfalso. revert Z. generalize (match rep with Some l => l | None => [] end).
  intros l. induction l as [|[idx v] l IH]; cbn; [discriminate|].
  pose proof (convert_nothrow (candidates o) idx). destruct (convert (candidates o) idx); cbn; try congruence.
  destruct (named_list (candidates o) l); cbn; congruence.
Qed.

(** The object after the variable-selection stage, if there is one. *)
Definition after_vars W srt o o1 : Prop :=
  (o_auto_vars o = false /\ o1 = o) \/ (o_auto_vars o = true /\ select_stage W srt o = Go o1).
Definition after_bw W o1 o2 : Prop :=
  (o_auto_bw o1 = false /\ o2 = o1) \/ (o_auto_bw o1 = true /\ bw_stage W o1 = Go o2).

Inductive run W srt o : finished C B -> Prop :=
| r_stop0 : w_stop0 W = true -> run W srt o (Returned (Zeros (w_n W) (length (o_x o))) (set_terminated true o))
| r_undef1 : w_stop0 W = false -> o_auto_vars o = true -> select_stage W srt o = Undef -> run W srt o Undefined
| r_fail1 o1 : w_stop0 W = false -> o_auto_vars o = true -> select_stage W srt o = Failed o1 -> run W srt o (Threw o1)
| r_stop1 o1 : w_stop0 W = false -> o_auto_vars o = true -> select_stage W srt o = Go o1 -> w_stop1 W = true ->
    run W srt o (Returned (Zeros (w_n W) (length (o_x o1))) (set_terminated true o1))
| r_undef2 o1 : w_stop0 W = false -> after_vars W srt o o1 -> (o_auto_vars o = true -> w_stop1 W = false) ->
    o_auto_bw o1 = true -> bw_stage W o1 = Undef -> run W srt o Undefined
| r_fail2 o1 o2 : w_stop0 W = false -> after_vars W srt o o1 -> (o_auto_vars o = true -> w_stop1 W = false) ->
    o_auto_bw o1 = true -> bw_stage W o1 = Failed o2 -> run W srt o (Threw o2)
| r_stop2 o1 o2 : w_stop0 W = false -> after_vars W srt o o1 -> (o_auto_vars o = true -> w_stop1 W = false) ->
    o_auto_bw o1 = true -> bw_stage W o1 = Go o2 -> w_stop2 W = true ->
    run W srt o (Returned (Zeros (w_n W) (length (o_x o2))) (set_terminated true o2))
| r_final o1 o2 : w_stop0 W = false -> after_vars W srt o o1 -> (o_auto_vars o = true -> w_stop1 W = false) ->
    after_bw W o1 o2 -> (o_auto_bw o1 = true -> w_stop2 W = false) ->
    run W srt o (match w_final W (o_x o2) (o_weight o2) with
                 | Ok (b, stopped) => Returned (Coefficients b) (set_terminated (o_terminated o2 || stopped) o2)
                 | Throw => Threw o2 | UB => Undefined end).

Lemma run_fit W srt o : run W srt o (flow_fit W srt o).
Proof.
  unfold flow_fit, checkpoint. destruct (w_stop0 W) eqn:S0; [apply r_stop0; auto|].
  destruct (o_auto_vars o) eqn:A.
  - destruct (select_stage W srt o) as [o1|o1|] eqn:E; [|eapply r_fail1; eauto|apply r_undef1; auto].
    destruct (w_stop1 W) eqn:S1; [apply r_stop1; auto|].
    assert (AV : after_vars W srt o o1) by (right; auto).
    destruct (o_auto_bw o1) eqn:Ab.
    + destruct (bw_stage W o1) as [o2|o2|] eqn:E2; [|eapply r_fail2; eauto|eapply r_undef2; eauto].
      destruct (w_stop2 W) eqn:S2; [eapply r_stop2; eauto|]. eapply r_final; eauto. right; auto.
    + eapply r_final; eauto; [left; auto|congruence].
  - assert (AV : after_vars W srt o o) by (left; auto).
    destruct (o_auto_bw o) eqn:Ab.
    + destruct (bw_stage W o) as [o2|o2|] eqn:E2; [|eapply r_fail2; eauto; congruence|eapply r_undef2; eauto; congruence].
      destruct (w_stop2 W) eqn:S2; [eapply r_stop2; eauto; congruence|]. eapply r_final; eauto; [congruence|right; auto].
    + eapply r_final; eauto; [congruence|left; auto|congruence].
Qed.

(** The bandwidth stage changes the weight, its list and the status only. *)
Lemma bw_fields W o o' : bw_stage W o = Go o' \/ bw_stage W o = Failed o' ->
  o_x o' = o_x o /\ o_selected o' = o_selected o /\ o_vlist o' = o_vlist o /\ (o_terminated o = true -> o_terminated o' = true) /\
  o_auto_vars o' = o_auto_vars o /\ o_auto_bw o' = o_auto_bw o /\ o_lower o' = o_lower o /\ o_upper o' = o_upper o /\
  o_intercept o' = o_intercept o /\ o_threshold o' = o_threshold o /\
  wkernel (o_weight o') = wkernel (o_weight o) /\ wadaptive (o_weight o') = wadaptive (o_weight o).
Proof.
  unfold bw_stage. pose proof (C26_main (bw_criterion W o) (o_weight o) (lower_bound o) (upper_bound W o) []) as K.
  destruct (rresult (optimize (bw_criterion W o) (o_weight o) (lower_bound o) (upper_bound W o) [])) eqn:E;
    intros [H|H]; inversion H; subst; clear H; cbn; repeat split; auto; apply (proj2 K); auto.
Qed.

(** ** C121 *)
Definition outcome_object (f : finished C B) o' : Prop := (exists v, f = Returned v o') \/ f = Threw o'.

Lemma after_vars_fields W srt o o1 : sorter srt -> after_vars W srt o o1 ->
  (o_auto_vars o = false -> o_x o1 = o_x o /\ o_selected o1 = o_selected o) /\
  (o_auto_vars o = true ->
   o_selected o1 <> [] /\ NoDup (o_selected o1) /\
   (forall i, In i (o_selected o1) -> start C o <= i < length (o_x o)) /\
   map Some (o_x o1) = map (nth_error (o_x o)) ((if o_intercept o then [0] else []) ++ o_selected o1)).
Proof.
  intros So [[A ->]|[A E]]; rewrite A; split; try discriminate; auto.
  intros _. destruct (select_inv _ _ _ _ _ _ So E) as (sel & rep & vl & x' & _ & N & D & I & X & -> & _). cbn.
  repeat split; auto; apply I; auto.
Qed.

Lemma C121_columns_main W srt o o' : sorter srt -> outcome_object (flow_fit W srt o) o' ->
  (o_auto_vars o = false \/ w_stop0 W = true -> o_x o' = o_x o /\ o_selected o' = o_selected o) /\
  (o_auto_vars o = true -> w_stop0 W = false ->
   o_selected o' <> [] /\ NoDup (o_selected o') /\
   (forall i, In i (o_selected o') -> (if o_intercept o then 1 else 0) <= i < length (o_x o)) /\
   map Some (o_x o') = map (nth_error (o_x o)) ((if o_intercept o then [0] else []) ++ o_selected o')).
Proof.
  intros So H. change (if o_intercept o then 1 else 0) with (start C o).
  assert (K : w_stop0 W = true /\ o_x o' = o_x o /\ o_selected o' = o_selected o \/
    w_stop0 W = false /\ exists o1, after_vars W srt o o1 /\ o_x o' = o_x o1 /\ o_selected o' = o_selected o1).
  { revert H. destruct (run_fit W srt o) as [S0|S0 A E|o1 S0 A E|o1 S0 A E S1|o1 S0 AV S1 Ab E|o1 o2 S0 AV S1 Ab E|
      o1 o2 S0 AV S1 Ab E S2|o1 o2 S0 AV S1 AB S2]; intros [[v H]|H]; try discriminate.
    - inversion H; subst. left; auto.
    - exfalso; eapply select_nofail; eauto.
    - inversion H; subst. right. split; auto. exists o1. split; [right; auto|]. auto.
    - inversion H; subst. right; split; auto. exists o1. split; auto. destruct (bw_fields W o1 o') as (X & Se & _); auto.
    - inversion H; subst. right; split; auto. exists o1. split; auto. destruct (bw_fields W o1 o2) as (X & Se & _); auto.
    - right; split; auto. exists o1. split; auto.
      assert (Q : o_x o' = o_x o2 /\ o_selected o' = o_selected o2).
      { destruct (w_final W (o_x o2) (o_weight o2)) as [[b st]| |]; inversion H; auto. }
      destruct Q as [-> ->]. destruct AB as [[_ ->]|[_ E]]; auto. destruct (bw_fields W o1 o2) as (X & Se & _); auto.
    - right; split; auto. exists o1. split; auto.
      assert (Q : o_x o' = o_x o2 /\ o_selected o' = o_selected o2).
      { destruct (w_final W (o_x o2) (o_weight o2)) as [[b st]| |]; inversion H; auto. }
      destruct Q as [-> ->]. destruct AB as [[_ ->]|[_ E]]; auto. destruct (bw_fields W o1 o2) as (X & Se & _); auto. }
  destruct K as [(S0 & X & Se)|(S0 & o1 & AV & X & Se)].
  - split; [auto|congruence].
  - rewrite X, Se. destruct (after_vars_fields _ _ _ _ So AV) as [K1 K2]. split; [intros [A|A]; [auto|congruence]|auto].
Qed.

(** ** C122 *)
Lemma C122_result_main W srt o v o' : flow_fit W srt o = Returned v o' ->
  match v with
  | Coefficients b => exists stopped, w_final W (o_x o') (o_weight o') = Ok (b, stopped) /\ (stopped = true -> o_terminated o' = true)
  | Zeros r c => r = w_n W /\ c = length (o_x o') /\ o_terminated o' = true
  end.
Proof.
  destruct (run_fit W srt o) as [S0|S0 A E|o1 S0 A E|o1 S0 A E S1|o1 S0 AV S1 Ab E|o1 o2 S0 AV S1 Ab E|
      o1 o2 S0 AV S1 Ab E S2|o1 o2 S0 AV S1 AB S2]; intros H; try discriminate;
    try (inversion H; subst; cbn; auto).
  destruct (w_final W (o_x o2) (o_weight o2)) as [[b st]| |] eqn:E; inversion H; subst. cbn.
  exists st. split; auto. intros ->. apply orb_true_r.
Qed.
End P.
