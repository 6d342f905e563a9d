(** Proofs about FlowModel.v. *)
From Coq Require Import Reals Bool List Arith Permutation Lia Lra.
From Verif Require Import Outcome XReal XRealFacts KernelModel GoldModel GoldSpec GoldProofs GoldProofs2 VarModel VarSpec VarProofs FlowModel.
Import ListNotations.
Local Open Scope nat_scope.

Section P.
Variables C B : Type.
Notation object := (object C).
Notation world := (world C B).
Implicit Types (W : world) (o : object).

Lemma cols_ok (x : list C) idx : (forall i, In i idx -> i < length x) ->
  exists x', cols x idx = Ok x' /\ map Some x' = map (nth_error x) idx.
Proof.
  induction idx as [|i t IH]; intros H; [exists []; auto|]. cbn.
  destruct (nth_error x i) as [c|] eqn:E.
  - destruct IH as (x' & A & D); [intros; apply H; right; auto|]. rewrite A. cbn. exists (c :: x'). cbn. rewrite D; auto.
  - apply nth_error_None in E. specialize (H i (or_introl eq_refl)). lia.
Qed.
Lemma picked_ok (x : list C) idx : (forall i, In i idx -> i < length x) ->
  map Some (picked x idx) = map (nth_error x) idx.
Proof.
  induction idx as [|i t IH]; intros H; auto. cbn.
  destruct (nth_error x i) as [c|] eqn:E.
  - cbn. f_equal. apply IH. intros; apply H; right; auto.
  - apply nth_error_None in E. specialize (H i (or_introl eq_refl)). lia.
Qed.
Lemma map_Some_inj {A} (a b : list A) : map Some a = map Some b -> a = b.
Proof. revert b; induction a; destruct b; cbn; intros H; inversion H; f_equal; auto. Qed.

Definition start o : nat := if o_intercept o then 1 else 0.
Lemma cand_in o i : In i (candidates o) <-> start o <= i < length (o_x o).
Proof. unfold candidates, start. rewrite in_seq. destruct (o_intercept o); lia. Qed.
Lemma cand_nodup o : NoDup (candidates o).
Proof. apply seq_NoDup. Qed.
Lemma cand_length o : length (candidates o) = length (o_x o) - start o.
Proof. apply seq_length. Qed.

Lemma idx_range o sel : candidates o <> [] -> incl sel (candidates o) ->
  forall i, In i (index2uvec sel (o_intercept o)) -> i < length (o_x o).
Proof.
  intros N I i H. unfold index2uvec in H. apply in_app_iff in H as [H|H].
  - destruct (candidates o) as [|j l] eqn:E; [congruence|].
    assert (K : In j (candidates o)) by (rewrite E; left; auto). apply cand_in in K.
    destruct (o_intercept o); [destruct H as [<-|[]]; lia | destruct H].
  - apply I, cand_in in H. lia.
Qed.

(** Models of a forward search are not empty. *)
Lemma forward_nonempty cur rest ms : forward cur rest ms -> forall idx v, In (idx, v) ms -> idx <> [].
Proof.
  induction 1 as [cur|cur a j b va vj vb ms La Lb Mn F IH]; intros idx v I; [destruct I|].
  apply in_app_iff in I as [I|I]; [|eauto].
  apply in_combine_l in I. apply in_map_iff in I as (x & <- & _). destruct cur; discriminate.
Qed.
Lemma vs_none_empty crit srt t : vs_optimize crit srt [] t = UB.
Proof. reflexivity. Qed.

Lemma vs_nonempty crit srt vars t sel rep : sorter srt -> vs_optimize crit srt vars t = Ok (sel, rep) -> sel <> [].
Proof.
  intros So H. assert (V : vars <> []) by (intros ->; rewrite vs_none_empty in H; discriminate).
  destruct (search_spec crit vars) as (s & ms & S1 & S2 & S3).
  unfold vs_optimize in H. rewrite S1 in H; cbn [obind] in H. destruct s; [|inversion H; subst; auto].
  destruct (sort_groups srt (length vars) ms) as [r| |] eqn:R; cbn [obind] in H; try discriminate.
  destruct (select_spec t r) as [(k & b & K1 & K2 & K3 & _)|[_ K]]; [|rewrite K in H; discriminate].
  rewrite K3 in H; cbn [obind] in H.
  destruct (convert vars (fst b)) as [vs| |] eqn:E; cbn [obind] in H; inversion H; subst.
  apply convert_named in E. destruct b as [idx v]. cbn in E.
  destruct (sort_groups_perm srt _ _ _ So R) as [P _].
  assert (I : In (idx, v) ms) by (eapply Permutation_in; [exact P|]; eapply nth_error_In; eauto).
  destruct (S3 eq_refl) as [F _]. pose proof (forward_nonempty _ _ _ F _ _ I) as N.
  intros ->. destruct idx; [congruence|discriminate].
Qed.

(** The reported models. *)
Lemma named_list_ok vars l : (forall idx v, In (idx, v) l -> forall i, In i idx -> i < length vars) ->
  exists r, named_list vars l = Ok r /\
    forall vs v, In (vs, v) r <-> exists idx, In (idx, v) l /\ named vars idx vs.
Proof.
  induction l as [|[idx v] t IH]; intros H; cbn.
  - exists []. split; auto. intros vs v; split; [intros []|intros (i & [] & _)].
  - destruct (convert_ok vars idx) as (a & A1 & A2); [intros; eapply H; [left; reflexivity|auto]|].
    destruct IH as (r & R1 & R2); [intros; eapply H; [right; eauto|eauto]|]. rewrite A1; cbn. rewrite R1; cbn.
    exists ((a, v) :: r). split; auto. intros vs u. cbn. rewrite R2. split.
    + intros [E|(i & I & N)]; [inversion E; subst; exists idx; auto|exists i; auto].
    + intros (i & [E|I] & N); [left|right; eauto]. inversion E; subst. f_equal. exact (named_fun vars i a vs A2 N).
Qed.

Lemma rep_in crit srt vars t sel rep : sorter srt -> vs_optimize crit srt vars t = Ok (sel, Some rep) ->
  exists ms, search crit vars = Ok (true, ms) /\ Permutation rep ms /\ (forall m, In m ms -> snd m <> XN) /\
    sort_groups srt (length vars) ms = Ok rep /\ (exists m, In m rep /\ named vars (fst m) sel).
Proof.
  intros So H. destruct (search_spec crit vars) as (s & ms & S1 & S2 & S3).
  unfold vs_optimize in H. rewrite S1 in H; cbn [obind] in H. destruct s; [|discriminate].
  destruct (sort_groups srt (length vars) ms) as [r| |] eqn:R; cbn [obind] in H; try discriminate.
  destruct (select_spec t r) as [(k & b & K1 & K2 & K3 & _)|[_ K]]; [|rewrite K in H; discriminate].
  rewrite K3 in H; cbn [obind] in H.
  destruct (convert vars (fst b)) as [vs| |] eqn:E; cbn [obind] in H; inversion H; subst.
  exists ms. destruct (sort_groups_perm srt _ _ _ So R) as [P _]. split; auto. split; auto. split.
  2:{ split; auto. exists b. split; [eapply nth_error_In; eauto|]. apply convert_named; auto. }
  destruct (S3 eq_refl) as [_ L]. clear - R L.
  revert ms rep R L. generalize (length vars) as n. induction n as [|n IH]; intros ms rep R L m I.
  - destruct ms; [destruct I|cbn in L; lia].
  - cbn [sort_groups] in R. destruct (Nat.ltb (length ms) (S n)) eqn:K; [discriminate|].
    destruct (existsb (fun m => xisnan (snd m)) (firstn (S n) ms)) eqn:X; [discriminate|].
    destruct (sort_groups srt n (skipn (S n) ms)) as [r'| |] eqn:R'; cbn [obind] in R; try discriminate.
    rewrite <- (firstn_skipn (S n) ms) in I. apply in_app_iff in I as [I|I].
    + intros E. assert (T : existsb (fun m => xisnan (snd m)) (firstn (S n) ms) = true).
      { apply existsb_exists. exists m; split; auto. rewrite E; auto. } congruence.
    + eapply IH; eauto. rewrite skipn_length. apply Nat.ltb_ge in K. nia.
Qed.

(** What the selection stage leaves behind. *)
Lemma select_inv W srt o o' : sorter srt -> select_stage W srt o = Go o' ->
  exists sel rep vl x', vs_optimize (var_criterion W o) srt (candidates o) (o_threshold o) = Ok (sel, rep) /\
    sel <> [] /\ NoDup sel /\ (forall i, In i sel -> start o <= i < length (o_x o)) /\
    map Some x' = map (nth_error (o_x o)) (index2uvec sel (o_intercept o)) /\
    o' = set_x x' vl (set_selected sel (match rep with None => set_terminated true o | Some _ => o end)) /\
    named_list (candidates o) (match rep with None => [] | Some l => l end) = Ok vl.
Proof.
  intros So H. unfold select_stage in H.
  destruct (vs_optimize (var_criterion W o) srt (candidates o) (o_threshold o)) as [[sel rep]| |] eqn:E; try discriminate.
  pose proof (vs_nonempty _ _ _ _ _ _ So E) as N.
  destruct (C29_main _ _ _ _ _ _ So (cand_nodup o) E) as [D I].
  assert (V : candidates o <> []) by (intros Q; rewrite Q, vs_none_empty in E; discriminate).
  destruct (cols_ok (o_x o) _ (idx_range o sel V I)) as (x' & X1 & X2). rewrite X1 in H.
  destruct (named_list (candidates o) match rep with Some l => l | None => [] end) as [vl| |] eqn:Vl;
    destruct sel as [|a sel]; try congruence; try discriminate.
  assert (o' = set_x x' vl (set_selected (a :: sel) match rep with
         | Some _ => o
         | None => set_terminated true o
         end)) by congruence.
  exists (a :: sel), rep, vl, x'. repeat split; auto; apply cand_in; auto.
Qed.

(** The stage is undefined exactly when the selector is. *)
Lemma select_total W srt o : sorter srt ->
  select_stage W srt o = Undef <->
  vs_optimize (var_criterion W o) srt (candidates o) (o_threshold o) = UB.
Proof.
  intros So. unfold select_stage.
  destruct (vs_optimize (var_criterion W o) srt (candidates o) (o_threshold o)) as [[sel rep]| |] eqn:E;
    try (split; congruence).
  pose proof (vs_nonempty _ _ _ _ _ _ So E) as N.
  destruct (C29_main _ _ _ _ _ _ So (cand_nodup o) E) as [D I].
  assert (V : candidates o <> []) by (intros Q; rewrite Q, vs_none_empty in E; discriminate).
  destruct (cols_ok (o_x o) _ (idx_range o sel V I)) as (x' & X1 & X2). rewrite X1.
  assert (L : exists vl, named_list (candidates o) match rep with Some l => l | None => [] end = Ok vl).
  { destruct rep as [l|]; [|exists []; auto].
    destruct (rep_in _ _ _ _ _ _ So E) as (ms & S1 & P & _ & _).
    destruct (search_spec (var_criterion W o) (candidates o)) as (s & ms' & T1 & _ & T3).
    rewrite S1 in T1. inversion T1; subst. destruct (T3 eq_refl) as [F _].
    destruct (named_list_ok (candidates o) l) as (r & R & _); eauto.
    intros idx v J i K. apply (Permutation_in _ P) in J.
    destruct (forward_idx _ _ _ F (seq_NoDup _ _) idx v J) as [_ Inc]. apply Inc in K. apply in_seq in K. lia. }
  destruct L as [vl ->]. destruct sel; split; congruence.
Qed.
End P.
