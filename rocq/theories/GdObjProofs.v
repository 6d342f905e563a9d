(** A GWDR object over several calls. *)
From Coq Require Import Reals Bool List Arith ZArith Lra Lia.
From Verif Require Import Outcome XReal XRealFacts KernelModel KernelProofs DistModel VarModel VarSpec VarProofs FlowModel FlowProofs GwdrModel GdObjModel GdObjSpec.
Import ListNotations.
Local Open Scope R_scope.

Lemma place_located cs : forall ds, length ds = length cs -> place cs ds = Some (located cs ds).
Proof.
  unfold located. induction cs as [|c cs IH]; intros [|d ds] L; try discriminate; [reflexivity|].
  cbn [place combine map fst snd]. rewrite IH by (cbn in L; lia). reflexivity.
Qed.
Lemma located_chosen cs : forall ds ds', map chosen ds = map chosen ds' -> located cs ds = located cs ds'.
Proof.
  unfold located. induction cs as [|c cs IH]; intros [|d ds] [|d' ds'] H; try discriminate; try reflexivity.
  cbn [combine map fst snd]. cbn [map] in H. injection H as H1 H2 H3 H. rewrite H1, H2, H3. f_equal. apply IH, H.
Qed.
Lemma place_chosen cs : forall ds r, place cs ds = Some r -> map chosen r = map chosen ds.
Proof.
  induction cs as [|c cs IH]; intros [|d ds] r H; cbn [place] in H; try discriminate; try (injection H as <-; reflexivity).
  destruct (place cs ds) as [r'|] eqn:E; [|discriminate]. injection H as <-. cbn [map]. rewrite (IH _ _ E). reflexivity.
Qed.
Lemma located_length cs ds : length ds = length cs -> length (located cs ds) = length ds.
Proof. intros H. unfold located. rewrite map_length, combine_length. lia. Qed.
Lemma located_placed n cs : (forall c, In c cs -> length c = n) -> forall ds, forallb (placed n) (located cs ds) = true.
Proof.
  intros H. unfold located. induction cs as [|c cs IH]; intros [|d ds]; try reflexivity. cbn [combine map fst snd forallb].
  rewrite IH by (intros; apply H; right; assumption). unfold placed. cbn [d_dist]. rewrite (H c) by (left; reflexivity). rewrite Nat.eqb_refl. reflexivity.
Qed.
Lemma assign_kind bws : forall ds, map kind (assign bws ds) = map kind ds.
Proof. induction bws as [|b bws IH]; intros [|d ds]; cbn [assign map]; try reflexivity. rewrite IH. reflexivity. Qed.
Lemma assign_bws bws : forall ds, length bws = length ds -> map d_bw (assign bws ds) = bws.
Proof. induction bws as [|b bws IH]; intros [|d ds] H; try discriminate; cbn [assign map]; [reflexivity|]. rewrite IH by (cbn in H; lia). reflexivity. Qed.
Lemma starts_kind n v : forall ds, map kind (snd (starts n v ds)) = map kind ds.
Proof.
  induction ds as [|d ds IH]; [reflexivity|]. cbn [starts]. destruct (ends n v d) as [[l u]| |]; try reflexivity.
  destruct (starts n v ds) as [r t']. cbn [snd map] in *. rewrite IH. reflexivity.
Qed.

Section P.
Variables (C Y Mat Se Diag Tel : Type).
Variable srt : list (list nat * xd) -> list (list nat * xd).
Variable global_aicc : list C -> Y -> option xd.
Variable local_aicc : Tel -> nat -> list C -> Y -> list dimension -> bool * option xd.
Variable bw_crit : Tel -> list C -> Y -> list dimension -> option xd.
Variable simplex : Tel -> list R -> (list R -> xd) -> gsl.
Variable fitting : Tel -> list C -> Y -> list dimension -> outcome (Mat * Se * bool).
Variable spoiled : Tel -> list C -> Y -> list dimension -> Se -> Se.
Variable report : list C -> Y -> Mat -> Se -> Diag * Se.
Notation object := (object C Y Mat Se Diag).
Notation select_stage := (select_stage srt global_aicc local_aicc).
Notation bw_stage := (bw_stage bw_crit simplex).
Notation fit_stage := (fit_stage fitting spoiled report).
Notation fit := (fit srt global_aicc local_aicc bw_crit simplex fitting spoiled report).
Notation step := (step srt global_aicc local_aicc bw_crit simplex fitting spoiled report).
Notation run := (run srt global_aicc local_aicc bw_crit simplex fitting spoiled report).
Notation call := (call C Y Tel).

(** ** Equal settings give equal answers. *)
(** Like [same_settings], with equal distances. *)
Definition alike (o p : object) : Prop :=
  o_coords o = o_coords p /\ o_rows o = o_rows p /\ o_x o = o_x p /\ o_y o = o_y p /\ o_dims o = o_dims p /\
  o_intercept o = o_intercept p /\ o_auto_bw o = o_auto_bw p /\ o_auto_vars o = o_auto_vars p /\ o_threshold o = o_threshold p /\
  o_maxiter o = o_maxiter p /\ o_term o = o_term p.
Lemma alike_same o p : alike o p -> same_settings o p.
Proof. unfold alike, same_settings. intuition congruence. Qed.
Definition stage_alike (s s' : stage C Y Mat Se Diag) : Prop :=
  match s, s' with
  | Go o, Go p => alike o p
  | Leave a o, Leave b p => a = b /\ same_settings o p
  | _, _ => False
  end.
Lemma andthen_alike s s' k k' : stage_alike s s' -> (forall o p, alike o p -> stage_alike (k o) (k' p)) -> stage_alike (andthen s k) (andthen s' k').
Proof. destruct s, s'; cbn [stage_alike andthen]; auto; contradiction. Qed.
Ltac open o p := destruct o as [oc or ox oy od oi oa ov ot om ob os og ol ow oe], p as [pc pr px py pd pi pa pv pt pm pb ps pg pl pw pe];
  unfold alike in *; cbn [o_coords o_rows o_x o_y o_dims o_intercept o_auto_bw o_auto_vars o_threshold o_maxiter o_term] in *.
Lemma checkpoint_alike b o p : alike o p -> stage_alike (checkpoint b o) (checkpoint b p).
Proof.
  intros A. unfold checkpoint. destruct b; cbn [stage_alike]; [|exact A]. split; [destruct A as (_ & -> & -> & _); reflexivity|].
  apply alike_same. unfold set_term. open o p. intuition.
Qed.
Ltac same_fields := repeat match goal with H : _ /\ _ |- _ => destruct H end; subst; repeat split; auto.
Lemma select_alike t o p : alike o p -> stage_alike (select_stage t o) (select_stage t p).
Proof.
  intros A. open o p. repeat match goal with H : _ /\ _ |- _ => destruct H end. subst.
  set (o := Object pc pr px py pd pi pa pv pt pm ob os og ol ow pe). set (p := Object pc pr px py pd pi pa pv pt pm pb ps pg pl pw pe).
  unfold select_stage. change (var_criterion global_aicc local_aicc t o) with (var_criterion global_aicc local_aicc t p).
  change (candidates o) with (candidates p). change (is_global o) with (is_global p).
  change (o_dims o) with (o_dims p). change (o_rows o) with (o_rows p). change (o_threshold o) with (o_threshold p). change (o_x o) with (o_x p). change (o_intercept o) with (o_intercept p).
  destruct (negb (is_global p) && negb (forallb (placed (o_rows p)) (o_dims p)) && Nat.ltb 0 (o_rows p) && Nat.ltb 0 (length (candidates p)));
    [split; [reflexivity|apply alike_same; repeat split]|].
  destruct (vs_optimize (var_criterion global_aicc local_aicc t p) srt (candidates p) (o_threshold p)) as [[sel rep]| |];
    [|split; [reflexivity|apply alike_same; repeat split]|split; [reflexivity|apply alike_same; repeat split]].
  destruct sel as [|a sel]; [destruct rep; repeat split|].
  destruct (cols (o_x p) (index2uvec (a :: sel) (o_intercept p))) as [x'| |]; [|destruct rep; split; try reflexivity; apply alike_same; repeat split..].
  destruct (named_list (candidates p) match rep with Some l => l | None => [] end) as [vl| |]; [|destruct rep; split; try reflexivity; apply alike_same; repeat split..].
  destruct rep; repeat split.
Qed.
Lemma bw_alike t stop o p : alike o p -> stage_alike (bw_stage t stop o) (bw_stage t stop p).
Proof.
  intros A. open o p. repeat match goal with H : _ /\ _ |- _ => destruct H end. subst.
  unfold bw_stage. cbn [o_coords o_rows o_x o_y o_dims o_intercept o_auto_bw o_auto_vars o_threshold o_maxiter o_term].
  destruct (starts pr (length px) pd) as [[[]| |] ds]; [|split; [reflexivity|apply alike_same; repeat split]|split; [reflexivity|apply alike_same; repeat split]].
  destruct ds as [|d ds]; [split; [reflexivity|apply alike_same; repeat split]|]. cbv zeta.
  match goal with |- context [bw_criterion bw_crit t ?a] => match goal with |- context [bw_criterion bw_crit t ?b] => change (bw_criterion bw_crit t a) with (bw_criterion bw_crit t b) end end.
  set (oo := set_dims (d :: ds) _). set (pp := set_dims (d :: ds) (Object _ _ _ _ _ _ _ _ _ _ pb _ _ _ _ _)).
  change (bw_criterion bw_crit t oo) with (bw_criterion bw_crit t pp).
  set (g := mkGsl _ _ _ _ _). clearbody g.
  destruct (optimize g pr pm (map (fun d0 => (d_adaptive d0, d_bw d0)) (d :: ds))) as [r|]; [|split; [reflexivity|apply alike_same; repeat split]].
  apply andthen_alike; [apply checkpoint_alike; repeat split|]. intros o' p' A. destruct (Z.eqb (o_code r) 0); [apply checkpoint_alike, A|]. split; [reflexivity|apply alike_same, A].
Qed.
Lemma fit_alike t stop o p : alike o p -> stage_alike (fit_stage t stop o) (fit_stage t stop p).
Proof.
  intros A. open o p. repeat match goal with H : _ /\ _ |- _ => destruct H end. subst.
  unfold fit_stage. cbn [o_coords o_rows o_x o_y o_dims o_intercept o_auto_bw o_auto_vars o_threshold o_maxiter o_term].
  destruct (negb (forallb (placed pr) pd) && Nat.ltb 0 pr); [split; [reflexivity|apply alike_same; repeat split]|].
  destruct (fitting t px py pd) as [[[m se] st]| |]; [|split; [reflexivity|apply alike_same; repeat split]..].
  apply andthen_alike; [apply checkpoint_alike; repeat split|]. intros o' p' A. destruct (report px py m se) as [dg se']. split; [reflexivity|].
  apply alike_same. destruct o', p'. exact A.
Qed.
Lemma coords_alike o p : same_settings o p -> length (o_dims p) = length (o_coords p) -> stage_alike (coords_stage o) (coords_stage p).
Proof.
  intros (S1 & S2 & S3 & S4 & S5 & S6) L. unfold coords_stage.
  assert (L' : length (o_dims o) = length (o_coords o)) by (rewrite S1, <- L, <- (map_length chosen (o_dims o)), S5, map_length; reflexivity).
  rewrite (place_located _ _ L), (place_located _ _ L'). rewrite S1, (located_chosen _ _ _ S5). cbn [stage_alike]. unfold alike, set_dims.
  cbn [o_coords o_rows o_x o_y o_dims o_intercept o_auto_bw o_auto_vars o_threshold o_maxiter o_term]. intuition.
Qed.
Lemma fit_same t stop o p : same_settings o p -> length (o_dims p) = length (o_coords p) ->
  fst (fit t stop o) = fst (fit t stop p) /\ same_settings (snd (fit t stop o)) (snd (fit t stop p)).
Proof.
  intros S L. unfold fit, checkpoint at 1 3 5 7. destruct (stop 0%nat); cbn [andthen].
  { cbn [fst snd]. destruct S as (S1 & S2 & S3 & S4). split; [rewrite S2, S3; reflexivity|]. unfold same_settings, set_term.
    cbn [o_coords o_rows o_x o_y o_dims o_intercept o_auto_bw o_auto_vars o_threshold o_maxiter o_term]. intuition. }
  match goal with |- fst (match ?s with Go _ => _ | Leave _ _ => _ end) = fst (match ?s' with Go _ => _ | Leave _ _ => _ end) /\ _ => assert (E : stage_alike s s') end.
  { apply andthen_alike; [apply coords_alike; assumption|]. intros a b A. apply andthen_alike.
    - replace (o_auto_vars a) with (o_auto_vars b) by (symmetry; apply A). destruct (o_auto_vars b); [|exact A]. apply andthen_alike; [apply select_alike, A|apply checkpoint_alike].
    - intros a' b' A'. apply andthen_alike; [|apply fit_alike]. replace (o_auto_bw a') with (o_auto_bw b') by (symmetry; apply A'). destruct (o_auto_bw b'); [apply bw_alike, A'|exact A']. }
  revert E. match goal with |- stage_alike ?s ?s' -> _ => destruct s, s'; cbn [stage_alike fst snd]; try contradiction; auto end.
  intros A. split; [reflexivity|apply alike_same, A].
Qed.
Lemma again_main : forall cs (o p : object) c, same_settings (run cs o) p -> length (o_dims p) = length (o_coords p) ->
  fst (step c (run cs o)) = fst (step c p) /\ same_settings (snd (step c (run cs o))) (snd (step c p)).
Proof.
  intros cs o p c. generalize (run cs o). clear o. intros o S L.
  destruct c; [apply fit_same; assumption|destruct S as (S1 & S2 & S3 & S4)..];
    (split; [cbn [step fst]; rewrite ?S3; reflexivity|]); unfold same_settings in *;
    cbn [step snd o_coords o_rows o_x o_y o_dims o_intercept o_auto_bw o_auto_vars o_threshold o_maxiter o_term] in *; rewrite ?map_map; intuition.
Qed.

(** ** What a fit returns. *)
Lemma fit_stage_inv t stop o a o' : fit_stage t stop o = Leave a o' ->
  o_coords o' = o_coords o /\ o_rows o' = o_rows o /\ o_x o' = o_x o /\ o_y o' = o_y o /\ o_dims o' = o_dims o /\ o_selected o' = o_selected o /\ o_vlist o' = o_vlist o /\
  (o_intercept o' = o_intercept o /\ o_auto_bw o' = o_auto_bw o /\ o_auto_vars o' = o_auto_vars o /\ o_threshold o' = o_threshold o /\ o_maxiter o' = o_maxiter o) /\
  (o_term o = true -> o_term o' = true) /\
  match a with
  | Matrix m => exists se st, fitting t (o_x o) (o_y o) (o_dims o) = Ok (m, se, st) /\ o_betas o' = m /\ (o_diag o', o_se o') = report (o_x o) (o_y o) m se /\ o_term o' = o_term o || st
  | Zeros r c => r = o_rows o /\ c = length (o_x o) /\ o_term o' = true
  | _ => o_term o' = o_term o
  end.
Proof.
  unfold fit_stage. destruct (negb (forallb (placed (o_rows o)) (o_dims o)) && Nat.ltb 0 (o_rows o)); [intros E; injection E as <- <-; repeat split; auto|].
  destruct (fitting t (o_x o) (o_y o) (o_dims o)) as [[[m se] st]| |]; [|intros E; injection E as <- <-; repeat split; auto..].
  unfold checkpoint. destruct (stop 4%nat); cbn [andthen]; [intros E; injection E as <- <-; repeat split; auto|].
  destruct (report (o_x o) (o_y o) m se) as [dg se'] eqn:RE. intros E. injection E as <- <-. repeat split; [cbn; intros ->; reflexivity|]. exists se, st. repeat split. symmetry. exact RE.
Qed.
Lemma fit_stage_leaves t stop o : exists a o', fit_stage t stop o = Leave a o'.
Proof.
  unfold fit_stage. destruct (negb (forallb (placed (o_rows o)) (o_dims o)) && Nat.ltb 0 (o_rows o)); [eauto|].
  destruct (fitting t (o_x o) (o_y o) (o_dims o)) as [[[m se] st]| |]; eauto.
  unfold checkpoint. destruct (stop 4%nat); cbn [andthen]; eauto. destruct (report (o_x o) (o_y o) m se); eauto.
Qed.

(** ** What no fit changes. *)
Definition framed (o o' : object) : Prop :=
  kept o o' /\ (o_auto_bw o = false -> map chosen (o_dims o') = map chosen (o_dims o)) /\ (o_term o = true -> o_term o' = true) /\
  incl (o_x o') (o_x o) /\ (length (o_x o') <= length (o_x o))%nat /\ (o_auto_vars o = false -> o_x o' = o_x o).
Lemma framed_refl o : framed o o.
Proof. repeat split; auto. apply incl_refl. Qed.
Lemma framed_trans a b c : framed a b -> framed b c -> framed a c.
Proof.
  unfold framed, kept. intros ((A1 & A2 & A3 & A4 & A5 & A6 & A7 & A8 & A9) & A10 & A11 & A12 & A13 & A14) ((B1 & B2 & B3 & B4 & B5 & B6 & B7 & B8 & B9) & B10 & B11 & B12 & B13 & B14).
  split; [repeat split; congruence|]. split; [intros H; rewrite B10, A10; congruence|]. split; [auto|]. split; [eapply incl_tran; eassumption|]. split; [lia|].
  intros H. rewrite B14, A14; congruence.
Qed.
Definition obj (s : stage C Y Mat Se Diag) : object := match s with Go o => o | Leave _ o => o end.
Lemma andthen_framed o s k : framed o (obj s) -> (forall o', framed o' (obj (k o'))) -> framed o (obj (andthen s k)).
Proof. destruct s; cbn [obj andthen]; auto. intros A B. eapply framed_trans; [exact A|apply B]. Qed.
Lemma checkpoint_framed b o : framed o (obj (checkpoint b o)).
Proof. unfold checkpoint. destruct b; cbn [obj]; [|apply framed_refl]. repeat split; auto. apply incl_refl. Qed.
Lemma kind_chosen ds ds' : map chosen ds = map chosen ds' -> map kind ds = map kind ds'.
Proof. intros H. change kind with (fun d => fst (chosen d)). rewrite <- (map_map chosen fst ds), <- (map_map chosen fst ds'), H. reflexivity. Qed.
Lemma coords_framed o : framed o (obj (coords_stage o)).
Proof.
  unfold coords_stage. destruct (place (o_coords o) (o_dims o)) as [ds|] eqn:E; cbn [obj]; [|apply framed_refl].
  pose proof (place_chosen _ _ _ E) as H. repeat split; auto; [apply kind_chosen, H|apply incl_refl].
Qed.
Lemma fit_framed t stop o : framed o (obj (fit_stage t stop o)).
Proof.
  destruct (fit_stage_leaves t stop o) as (a & o' & E). pose proof (fit_stage_inv t stop o a o' E) as H. rewrite E. cbn [obj].
  destruct H as (H1 & H2 & H3 & H4 & H5 & H6 & H7 & (H8 & H9 & H10 & H11 & H12) & H13 & _). unfold framed, kept. rewrite H3, H5.
  repeat split; auto. apply incl_refl.
Qed.
Lemma bw_framed t stop o : o_auto_bw o = true -> framed o (obj (bw_stage t stop o)).
Proof.
  intros AB. unfold bw_stage. pose proof (starts_kind (o_rows o) (length (o_x o)) (o_dims o)) as SK.
  assert (D : forall ds b, map kind ds = map kind (o_dims o) -> (o_term o = true -> b = true) -> framed o (set_term b (set_dims ds o)))
    by (intros ds b K T; repeat split; auto; [intros F; congruence|apply incl_refl]).
  assert (D' : forall ds, map kind ds = map kind (o_dims o) -> framed o (set_dims ds o))
    by (intros ds K; repeat split; auto; [intros F; congruence|apply incl_refl]).
  destruct (starts (o_rows o) (length (o_x o)) (o_dims o)) as [[[]| |] ds]; cbn [snd] in SK; [|apply D', SK|apply framed_refl].
  destruct ds as [|d ds]; [apply D', SK|]. cbv zeta. set (g := mkGsl _ _ _ _ _).
  destruct (optimize g (o_rows o) (o_maxiter o) (map (fun d0 => (d_adaptive d0, d_bw d0)) (d :: ds))) as [r|]; [|apply D', SK].
  apply andthen_framed.
  - eapply framed_trans; [|apply checkpoint_framed]. apply (D (assign (o_bws r) (d :: ds))); [rewrite assign_kind; exact SK|].
    intros T. unfold g. cbn [g_stopped]. rewrite T. reflexivity.
  - intros o'. destruct (Z.eqb (o_code r) 0); [apply checkpoint_framed|apply framed_refl].
Qed.

(** ** Selection. *)
Lemma cand_in (o : object) i : In i (candidates o) <-> ((if o_intercept o then 1 else 0) <= i < length (o_x o))%nat.
Proof. unfold candidates. rewrite in_seq. destruct (o_intercept o); lia. Qed.
Lemma cand_nodup (o : object) : NoDup (candidates o).
Proof. apply seq_NoDup. Qed.
Lemma idx_range (o : object) sel : candidates o <> [] -> incl sel (candidates o) -> forall i, In i (index2uvec sel (o_intercept o)) -> (i < length (o_x o))%nat.
Proof.
  intros N I i H. assert (P : (0 < length (o_x o))%nat).
  { destruct (candidates o) as [|a l] eqn:E; [congruence|]. assert (In a (candidates o)) as H' by (rewrite E; left; reflexivity). apply cand_in in H'. lia. }
  unfold index2uvec in H. destruct (o_intercept o) eqn:E.
  - cbn in H. destruct H as [<-|H]; [exact P|]. apply I, cand_in in H. lia.
  - apply I, cand_in in H. lia.
Qed.
Lemma select_inv t (o o' : object) : sorter srt -> select_stage t o = Go o' ->
  exists sel rep vl x', vs_optimize (var_criterion global_aicc local_aicc t o) srt (candidates o) (o_threshold o) = Ok (sel, rep) /\
    sel <> [] /\ NoDup sel /\ (forall i, In i sel -> (if o_intercept o then 1 else 0) <= i < length (o_x o))%nat /\
    map Some x' = map (nth_error (o_x o)) (index2uvec sel (o_intercept o)) /\
    o' = set_x x' vl (set_selected sel (match rep with None => set_term true o | Some _ => o end)).
Proof.
  intros So H. unfold select_stage in H.
  destruct (negb (is_global o) && negb (forallb (placed (o_rows o)) (o_dims o)) && Nat.ltb 0 (o_rows o) && Nat.ltb 0 (length (candidates o))); [discriminate|].
  destruct (vs_optimize (var_criterion global_aicc local_aicc t o) srt (candidates o) (o_threshold o)) as [[sel rep]| |] eqn:E; try discriminate.
  pose proof (vs_nonempty _ _ _ _ _ _ So E) as N.
  destruct (C29_main _ _ _ _ _ _ So (cand_nodup o) E) as [D I].
  assert (V : candidates o <> []) by (intros Q; rewrite Q, vs_none_empty in E; discriminate).
  destruct (cols_ok _ (o_x o) _ (idx_range o sel V I)) as (x' & X1 & X2). rewrite X1 in H.
  destruct (named_list (candidates o) match rep with Some l => l | None => [] end) as [vl| |] eqn:Vl;
    destruct sel as [|a sel]; try congruence; try discriminate.
  exists (a :: sel), rep, vl, x'. split; [reflexivity|]. split; [assumption|]. split; [assumption|]. split; [intros i J; apply cand_in, I, J|]. split; [exact X2|]. congruence.
Qed.
Lemma some_incl {A} (x x' : list A) idx : map Some x' = map (nth_error x) idx -> incl x' x /\ length x' = length idx.
Proof.
  intros H. split; [|rewrite <- (map_length Some), H, map_length; reflexivity].
  intros a Ia. apply (in_map Some) in Ia. rewrite H in Ia. apply in_map_iff in Ia as (i & E & _). eapply nth_error_In, E.
Qed.
Lemma select_length (o : object) sel : NoDup sel -> (forall i, In i sel -> (if o_intercept o then 1 else 0) <= i < length (o_x o))%nat -> sel <> [] ->
  (length (index2uvec sel (o_intercept o)) <= length (o_x o))%nat.
Proof.
  intros D I N. assert (H : incl sel (candidates o)) by (intros i J; apply cand_in, I, J).
  pose proof (NoDup_incl_length D H) as L. unfold candidates in L. rewrite seq_length in L. unfold index2uvec.
  destruct sel as [|a sel]; [congruence|]. pose proof (I a (or_introl eq_refl)). destruct (o_intercept o); cbn [length app] in *; lia.
Qed.
Lemma select_framed t (o : object) : sorter srt -> o_auto_vars o = true -> framed o (obj (select_stage t o)).
Proof.
  intros So AV. destruct (select_stage t o) as [o'|a o'] eqn:E; cbn [obj].
  - destruct (select_inv t o o' So E) as (sel & rep & vl & x' & _ & N & D & I & X & ->). destruct (some_incl _ _ _ X) as [X1 X2].
    assert (L : (length x' <= length (o_x o))%nat) by (rewrite X2; apply select_length; assumption).
    destruct rep; repeat split; auto; intros; congruence.
  - unfold select_stage in E.
    destruct (negb (is_global o) && negb (forallb (placed (o_rows o)) (o_dims o)) && Nat.ltb 0 (o_rows o) && Nat.ltb 0 (length (candidates o)));
      [injection E as _ <-; apply framed_refl|].
    destruct (vs_optimize (var_criterion global_aicc local_aicc t o) srt (candidates o) (o_threshold o)) as [[sel rep]| |];
      [|injection E as _ <-; apply framed_refl..].
    assert (F : framed o (set_selected sel (match rep with None => set_term true o | Some _ => o end))) by (destruct rep; repeat split; auto; apply incl_refl).
    destruct sel as [|b sel]; [discriminate|]. cbv zeta in E.
    destruct (cols (o_x o) (index2uvec (b :: sel) (o_intercept o))) as [x'| |]; [|injection E as _ <-; exact F..].
    destruct (named_list (candidates o) match rep with Some l => l | None => [] end) as [vl| |]; [discriminate|injection E as _ <-; exact F..].
Qed.
Lemma fit_frames t stop o : sorter srt -> framed o (snd (fit t stop o)).
Proof.
  intros So. unfold fit.
  match goal with |- framed o (snd (match ?s with Go _ => _ | Leave _ _ => _ end)) => assert (F : framed o (obj s)) end.
  { apply andthen_framed; [apply checkpoint_framed|]. intros o1. apply andthen_framed; [apply coords_framed|]. intros o2. apply andthen_framed.
    - destruct (o_auto_vars o2) eqn:AV; [|apply framed_refl]. apply andthen_framed; [apply select_framed; assumption|apply checkpoint_framed].
    - intros o3. apply andthen_framed; [|apply fit_framed]. destruct (o_auto_bw o3) eqn:AB; [apply bw_framed, AB|apply framed_refl]. }
  revert F. match goal with |- framed o (obj ?s) -> _ => destruct s; exact (fun H => H) end.
Qed.

Lemma kept_main : forall (o : object) t stop, sorter srt -> kept o (snd (fit t stop o)) /\
  (o_auto_bw o = false -> map chosen (o_dims (snd (fit t stop o))) = map chosen (o_dims o)) /\
  (o_auto_vars o = false -> o_x (snd (fit t stop o)) = o_x o).
Proof. intros o t stop So. pose proof (fit_frames t stop o So) as F. split; [apply F|]. split; apply F. Qed.
Lemma step_frames c o : sorter srt -> is_fit c -> framed o (snd (step c o)).
Proof. intros So. destruct c; try contradiction. intros _. apply fit_frames, So. Qed.
Lemma columns_main : forall cs (o : object), sorter srt -> (forall c, In c cs -> ~ sets_x c) ->
  incl (o_x (run cs o)) (o_x o) /\ (length (o_x (run cs o)) <= length (o_x o))%nat.
Proof.
  intros cs. induction cs as [|c cs IH]; intros o So H; [split; [apply incl_refl|cbn; lia]|]. cbn [run].
  destruct (IH (snd (step c o)) So) as [A B]; [intros; apply H; right; assumption|].
  assert (F : incl (o_x (snd (step c o))) (o_x o) /\ (length (o_x (snd (step c o))) <= length (o_x o))%nat).
  { pose proof (H c (or_introl eq_refl)) as Hc. destruct c; try (split; [apply incl_refl|apply le_n]).
    - pose proof (fit_frames t stop o So) as F. split; apply F.
    - exfalso. apply Hc. exact I. }
  destruct F as [F1 F2]. split; [eapply incl_tran; eassumption|lia].
Qed.
Lemma dims_main : forall cs (o : object), sorter srt -> (forall c, In c cs -> ~ sets_weights c) ->
  map kind (o_dims (run cs o)) = map kind (o_dims o) /\
  ((forall c, In c cs -> ~ turns_on c) -> o_auto_bw o = false -> map chosen (o_dims (run cs o)) = map chosen (o_dims o)).
Proof.
  intros cs. induction cs as [|c cs IH]; intros o So H; [split; auto|]. cbn [run].
  destruct (IH (snd (step c o)) So) as [A B]; [intros; apply H; right; assumption|].
  pose proof (H c (or_introl eq_refl)) as Hc. split.
  - rewrite A. destruct c; try reflexivity; [apply (fit_frames t stop o So)|exfalso; apply Hc; exact I].
  - intros T AB. rewrite B; [| |].
    + destruct c; try reflexivity; [apply (fit_frames t stop o So), AB|exfalso; apply Hc; exact I].
    + intros c' I'. apply T. right. exact I'.
    + destruct c; try exact AB.
      * destruct (fit_frames t stop o So) as ((_ & _ & _ & _ & _ & K & _) & _). cbn [step]. rewrite K. exact AB.
      * pose proof (T _ (or_introl eq_refl)) as Tc. destruct b; [exfalso; apply Tc; exact I|reflexivity].
Qed.
Lemma sticky_main : forall cs (o : object), sorter srt -> o_term o = true -> o_term (run cs o) = true.
Proof.
  intros cs. induction cs as [|c cs IH]; intros o So H; [exact H|]. cbn [run]. apply IH; [exact So|].
  destruct c; try exact H. apply (fit_frames t stop o So), H.
Qed.

(** ** Answers. *)
(** Stages before the last: Leave only with zeros, an exception or undefined. *)
Definition early (s : stage C Y Mat Se Diag) : Prop :=
  match s with Go _ => True | Leave (Zeros r c) o => r = o_rows o /\ c = length (o_x o) /\ o_term o = true | Leave Threw _ => True | Leave Undefined _ => True | Leave _ _ => False end.
Lemma early_then s k : early s -> (forall o, early (k o)) -> early (andthen s k).
Proof. destruct s; cbn [andthen]; auto. Qed.
Lemma checkpoint_early b o : early (checkpoint b o).
Proof. unfold checkpoint. destruct b; cbn; auto. Qed.
Lemma coords_early o : early (coords_stage o).
Proof. unfold coords_stage. destruct (place (o_coords o) (o_dims o)); exact I. Qed.
Lemma select_early t (o : object) : early (select_stage t o).
Proof.
  unfold select_stage.
  destruct (negb (is_global o) && negb (forallb (placed (o_rows o)) (o_dims o)) && Nat.ltb 0 (o_rows o) && Nat.ltb 0 (length (candidates o))); [exact I|].
  destruct (vs_optimize (var_criterion global_aicc local_aicc t o) srt (candidates o) (o_threshold o)) as [[[|a sel] rep]| |]; try exact I.
  cbv zeta. destruct (cols (o_x o) (index2uvec (a :: sel) (o_intercept o))); try exact I.
  destruct (named_list (candidates o) match rep with Some l => l | None => [] end); exact I.
Qed.
Lemma bw_early t stop o : early (bw_stage t stop o).
Proof.
  unfold bw_stage. destruct (starts (o_rows o) (length (o_x o)) (o_dims o)) as [[[]| |] [|d ds]]; try exact I. cbv zeta. set (g := mkGsl _ _ _ _ _).
  destruct (optimize g (o_rows o) (o_maxiter o) (map (fun d0 => (d_adaptive d0, d_bw d0)) (d :: ds))) as [r|]; [|exact I].
  apply early_then; [apply checkpoint_early|]. intros o'. destruct (Z.eqb (o_code r) 0); [apply checkpoint_early|exact I].
Qed.
(** The stages before the last. *)
Definition before (t : Tel) (stop : nat -> bool) (o : object) : stage C Y Mat Se Diag :=
  andthen (checkpoint (stop 0%nat) o) (fun o => andthen (coords_stage o) (fun o =>
    andthen (if o_auto_vars o then andthen (select_stage t o) (checkpoint (stop 1%nat)) else Go o) (fun o => if o_auto_bw o then bw_stage t stop o else Go o))).
Lemma before_early t stop o : early (before t stop o).
Proof.
  unfold before. apply early_then; [apply checkpoint_early|]. intros o1. apply early_then; [apply coords_early|]. intros o2. apply early_then.
  - destruct (o_auto_vars o2); [|exact I]. apply early_then; [apply select_early|apply checkpoint_early].
  - intros o3. destruct (o_auto_bw o3); [apply bw_early|exact I].
Qed.
Lemma fit_before t stop o : fit t stop o = match andthen (before t stop o) (fit_stage t stop) with Leave a o' => (a, o') | Go o' => (Undefined, o') end.
Proof.
  unfold fit, before. destruct (checkpoint (stop 0%nat) o); [|reflexivity]. cbn [andthen]. destruct (coords_stage o0); [|reflexivity]. cbn [andthen].
  destruct (if o_auto_vars o1 then andthen (select_stage t o1) (checkpoint (stop 1%nat)) else Go o1); reflexivity.
Qed.
Lemma result_main : forall o t stop,
  let o' := snd (fit t stop o) in
  match fst (fit t stop o) with
  | Matrix m => exists se st, fitting t (o_x o') (o_y o') (o_dims o') = Ok (m, se, st) /\ o_betas o' = m /\ (o_diag o', o_se o') = report (o_x o') (o_y o') m se /\ (st = true -> o_term o' = true)
  | Zeros r c => r = o_rows o' /\ c = length (o_x o') /\ o_term o' = true
  | Done => False
  | _ => True
  end.
Proof.
  intros o t stop. cbv zeta. rewrite fit_before. pose proof (before_early t stop o) as E. destruct (before t stop o) as [o1|a o1]; cbn [andthen fst snd].
  - destruct (fit_stage_leaves t stop o1) as (a & o' & F). rewrite F. cbn [fst snd].
    destruct (fit_stage_inv t stop o1 a o' F) as (H1 & H2 & H3 & H4 & H5 & _ & _ & _ & _ & H). rewrite H2, H3, H4, H5.
    destruct a; try exact I; [|exact H|].
    + destruct H as (se & st & F1 & F2 & F3 & F4). exists se, st. repeat split; auto. intros ->. rewrite F4. apply orb_true_r.
    + revert F. unfold fit_stage. clear. destruct (negb (forallb (placed (o_rows o1)) (o_dims o1)) && Nat.ltb 0 (o_rows o1)); [discriminate|].
      destruct (fitting t (o_x o1) (o_y o1) (o_dims o1)) as [[[m se] st]| |]; try discriminate. unfold checkpoint. destruct (stop 4%nat); cbn [andthen]; [discriminate|].
      destruct (report (o_x o1) (o_y o1) m se). discriminate.
  - destruct a; try exact I; try contradiction. exact E.
Qed.
Lemma gd_setters_main : forall n cs x y ds b r k (o : object),
  let set s v := fst (step s o) = Done /\ gd_settings (snd (step s o)) = v /\ gd_outputs (snd (step s o)) = gd_outputs o in
  set (SetCoords n cs) (cs, n, o_x o, o_y o, o_dims o, o_intercept o, o_auto_bw o, o_auto_vars o, o_threshold o, o_maxiter o) /\
  set (SetX x) (o_coords o, o_rows o, x, o_y o, o_dims o, o_intercept o, o_auto_bw o, o_auto_vars o, o_threshold o, o_maxiter o) /\
  set (SetY y) (o_coords o, o_rows o, o_x o, y, o_dims o, o_intercept o, o_auto_bw o, o_auto_vars o, o_threshold o, o_maxiter o) /\
  set (SetWeights ds) (o_coords o, o_rows o, o_x o, o_y o, map (fun d => Dim (d_adaptive d) (d_kernel d) (d_bw d) None) ds, o_intercept o, o_auto_bw o, o_auto_vars o, o_threshold o, o_maxiter o) /\
  set (SetIntercept b) (o_coords o, o_rows o, o_x o, o_y o, o_dims o, b, o_auto_bw o, o_auto_vars o, o_threshold o, o_maxiter o) /\
  set (SetAutoBw b) (o_coords o, o_rows o, o_x o, o_y o, o_dims o, o_intercept o, b, o_auto_vars o, o_threshold o, o_maxiter o) /\
  set (SetAutoVars b) (o_coords o, o_rows o, o_x o, o_y o, o_dims o, o_intercept o, o_auto_bw o, b, o_threshold o, o_maxiter o) /\
  set (SetThreshold r) (o_coords o, o_rows o, o_x o, o_y o, o_dims o, o_intercept o, o_auto_bw o, o_auto_vars o, r, o_maxiter o) /\
  set (SetMaxIter k) (o_coords o, o_rows o, o_x o, o_y o, o_dims o, o_intercept o, o_auto_bw o, o_auto_vars o, o_threshold o, k).
Proof. intros. repeat split. Qed.
End P.
