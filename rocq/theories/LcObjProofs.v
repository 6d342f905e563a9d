(** A local ridge regression object over several calls. *)
From Coq Require Import Reals Bool List Arith Lra Lia.
From Verif Require Import Outcome XReal XRealFacts KernelModel GoldModel GoldSpec GoldProofs GoldProps FlowModel LcObjModel LcObjSpec.
Import ListNotations.
Local Open Scope R_scope.

Section P.
Variables (Crd XY Mat Diag Par Tel : Type).
Variable rows : Crd -> nat.
Variable columns : XY -> nat.
Variable cells : XY -> nat.
Variable maxdist : option (Crd * Crd) -> R.
Variable zeros : nat -> nat -> Mat.
Variable cv : Tel -> nat -> bool -> XY -> option (Crd * Crd) -> Par -> weight -> bool * option xd.
Variable reg : Tel -> bool -> XY -> option (Crd * Crd) -> Par -> weight -> outcome (Mat * (R * R) * bool).
Variable lost : Tel -> XY -> option (Crd * Crd) -> Par -> weight -> R * R.
Variable pred : Tel -> XY -> option (Crd * Crd) -> Par -> weight -> outcome (Mat * bool).
Variable skipped : Tel -> bool.
Variable diagnose : Crd -> XY -> Mat -> R * R -> Diag.
Notation object := (object Crd XY Mat Diag Par).
Notation checkpoint := (@checkpoint Crd XY Mat Diag Par rows columns).
Notation bw_criterion := (@bw_criterion Crd XY Mat Diag Par Tel cv).
Notation bw_stage := (@bw_stage Crd XY Mat Diag Par Tel rows maxdist cv).
Notation fit_stage := (@fit_stage Crd XY Mat Diag Par Tel rows columns reg lost diagnose).
Notation fit := (@fit Crd XY Mat Diag Par Tel rows columns maxdist cv reg lost diagnose).
Notation predict := (@predict Crd XY Mat Diag Par Tel rows columns cells zeros pred skipped).
Notation pred_stage := (@pred_stage Crd XY Mat Diag Par Tel rows columns cells zeros pred skipped).
Notation step := (@step Crd XY Mat Diag Par Tel rows columns cells maxdist zeros cv reg lost pred skipped diagnose).
Notation run := (@run Crd XY Mat Diag Par Tel rows columns cells maxdist zeros cv reg lost pred skipped diagnose).

Ltac opens := unfold set_diag, set_term, set_betas, set_traces, set_dist, set_bw.
Ltac fields := cbn [o_crd o_xy o_par o_weight o_dist o_auto o_omp o_traces o_betas o_diag o_blist o_term set_dist set_term set_bw set_traces set_betas set_diag].

(** ** Equal settings. *)
Definition alike (o p : object) : Prop := same_settings o p /\ o_dist o = o_dist p.
Definition stage_alike (s s' : stage Crd XY Mat Diag Par) : Prop :=
  match s, s' with Go o, Go p => alike o p | Leave a o, Leave b p => a = b /\ same_settings o p | _, _ => False end.
Lemma andthen_alike s s' k k' : stage_alike s s' -> (forall o p, alike o p -> stage_alike (k o) (k' p)) -> stage_alike (andthen s k) (andthen s' k').
Proof. destruct s, s'; cbn [stage_alike andthen]; auto; contradiction. Qed.
Lemma checkpoint_alike b o p : alike o p -> stage_alike (checkpoint b o) (checkpoint b p).
Proof.
  intros [(A1 & A2 & A3 & A4 & A5 & A6 & A7) A8]. unfold LcObjModel.checkpoint. destruct b; cbn [stage_alike]; [|repeat split; assumption].
  rewrite A1, A2. split; [reflexivity|]. repeat split; fields; auto.
Qed.
Lemma bw_alike t o p : alike o p -> stage_alike (bw_stage t o) (bw_stage t p).
Proof.
  destruct o as [oc ox op ow od oa oo ot ob og ol oe], p as [pc px pp pw pd pa po pt pb pg pl pe]. intros [(A1 & A2 & A3 & A4 & A5 & A6 & A7) A8].
  cbn [o_crd o_xy o_par o_weight o_dist o_auto o_omp o_term] in *. subst. unfold LcObjModel.bw_stage. fields. cbv zeta.
  set (o := Object pc px pp pw pd pa po ot ob og ol pe). set (p := Object pc px pp pw pd pa po pt pb pg pl pe).
  change (bw_criterion t o) with (bw_criterion t p).
  destruct (rresult _) as [|w| |]; repeat split.
Qed.
Lemma fit_alike t stop o p : alike o p -> stage_alike (fit_stage t stop o) (fit_stage t stop p).
Proof.
  intros [(A1 & A2 & A3 & A4 & A5 & A6 & A7) A8]. unfold LcObjModel.fit_stage. rewrite A2, A3, A4, A6, A8.
  destruct (reg t (o_omp p) (o_xy p) (o_dist p) (o_par p) (o_weight p)) as [[[m tr] st]| |]; [|repeat split; assumption..].
  cbv zeta. apply andthen_alike; [apply checkpoint_alike; repeat split; fields; auto; rewrite A7; reflexivity|].
  intros o' p' A. split; [reflexivity|]. destruct A as [(B1 & B2 & B3 & B4 & B5 & B6 & B7) B8]. repeat split; fields; assumption.
Qed.
Lemma pred_alike t loc stop o p : alike o p -> stage_alike (pred_stage t loc stop o) (pred_stage t loc stop p).
Proof.
  intros [(A1 & A2 & A3 & A4 & A5 & A6 & A7) A8]. unfold LcObjModel.pred_stage. rewrite A2, A3, A4, A6, A7, A8.
  assert (L : forall m o' p', alike o' p' -> stage_alike (Leave (Matrix m) o') (Leave (Matrix m) p')) by (intros m o' p' A; split; [reflexivity|apply A]).
  destruct (o_omp p) eqn:Om.
  - destruct (Nat.eqb (rows loc) 0 || skipped t); [|repeat split; auto; congruence].
    cbv zeta. apply andthen_alike; [apply checkpoint_alike; repeat split; fields; auto; congruence|apply L].
  - destruct (pred t (o_xy p) (o_dist p) (o_par p) (o_weight p)) as [[m st]| |]; [|repeat split; auto; congruence..].
    apply andthen_alike; [apply checkpoint_alike; repeat split; fields; auto; congruence|apply L].
Qed.
Lemma again_main : forall cs (o p : object) c, same_settings (run cs o) p ->
  fst (step c (run cs o)) = fst (step c p) /\ same_settings (snd (step c (run cs o))) (snd (step c p)).
Proof.
  intros cs o p c. generalize (run cs o). clear o. intros o S.
  assert (F : forall s s', stage_alike s s' ->
    fst (match s with Leave a o' => (a, o') | Go o' => (Undefined, o') end) = fst (match s' with Leave a o' => (a, o') | Go o' => (Undefined, o') end) /\
    same_settings (snd (match s with Leave a o' => (a, o') | Go o' => (Undefined, o') end)) (snd (match s' with Leave a o' => (a, o') | Go o' => (Undefined, o') end))).
  { intros [a|a1 a] [b|b1 b] H; try contradiction; cbn [fst snd]; [split; [reflexivity|apply H]|exact H]. }
  assert (D : forall d, alike (set_dist d o) (set_dist d p)) by (intros d; destruct S as (A1 & A2 & A3 & A4 & A5 & A6 & A7); repeat split; assumption).
  pose proof S as (A1 & A2 & A3 & A4 & A5 & A6 & A7).
  destruct c; cbn [LcObjModel.step]; [| |split; [reflexivity|repeat split; fields; assumption]..].
  - apply F. rewrite A1. apply andthen_alike; [apply checkpoint_alike, D|]. intros o1 p1 A. apply andthen_alike; [|apply fit_alike].
    replace (o_auto o1) with (o_auto p1) by (symmetry; apply A). destruct (o_auto p1); [|exact A]. apply andthen_alike; [apply bw_alike, A|apply checkpoint_alike].
  - apply F. rewrite A1. apply andthen_alike; [apply checkpoint_alike, D|apply pred_alike].
Qed.

(** ** Frames. *)
Lemma kept_refl (o : object) : kept o o.
Proof. repeat split. Qed.
Lemma kept_trans (a b c : object) : kept a b -> kept b c -> kept a c.
Proof.
  intros (A1 & A2 & A3 & A4 & A5 & A6 & A7 & A8) (B1 & B2 & B3 & B4 & B5 & B6 & B7 & B8). repeat split; try congruence.
  intros H. rewrite B8, A8; congruence.
Qed.
Definition obj (s : stage Crd XY Mat Diag Par) : object := match s with Go o => o | Leave _ o => o end.
Definition framed (o o' : object) : Prop := kept o o' /\ (o_term o = true -> o_term o' = true).
Lemma framed_trans a b c : framed a b -> framed b c -> framed a c.
Proof. intros [A B] [C D]. split; [eapply kept_trans; eassumption|auto]. Qed.
Lemma framed_refl o : framed o o.
Proof. split; [apply kept_refl|auto]. Qed.
Lemma andthen_framed o s k : framed o (obj s) -> (forall o', framed o' (obj (k o'))) -> framed o (obj (andthen s k)).
Proof. destruct s; cbn [obj andthen]; auto. intros A B. eapply framed_trans; [exact A|apply B]. Qed.
Lemma checkpoint_framed b o : framed o (obj (checkpoint b o)).
Proof. unfold LcObjModel.checkpoint. destruct b; repeat split; auto. Qed.
Lemma bw_framed t o : o_auto o = true -> framed o (obj (bw_stage t o)).
Proof.
  intros AU. unfold LcObjModel.bw_stage. cbv zeta. set (lo := if wadaptive (o_weight o) then 20 else 0). set (up := if wadaptive (o_weight o) then _ else _).
  pose proof (proj2 (C26_kernel_kept (bw_criterion t o) (o_weight o) lo up [])) as K. cbv zeta in K.
  destruct (rresult (optimize (bw_criterion t o) (o_weight o) lo up [])) as [|w| |]; cbn [obj]; try apply framed_refl.
  - repeat split; auto.
  - destruct (K w eq_refl) as [K1 K2]. repeat split; fields; auto. intros F. congruence.
Qed.
Lemma fit_framed t stop o : framed o (obj (fit_stage t stop o)).
Proof.
  unfold LcObjModel.fit_stage. destruct (reg t (o_omp o) (o_xy o) (o_dist o) (o_par o) (o_weight o)) as [[[m tr] st]| |]; [|repeat split; auto..].
  cbv zeta. apply andthen_framed; [eapply framed_trans; [|apply checkpoint_framed]; repeat split; fields; auto; intros ->; reflexivity|].
  intros o'. repeat split; auto.
Qed.
Lemma dist_framed d o : framed o (set_dist d o).
Proof. repeat split; auto. Qed.
Lemma fit_frames t stop o : framed o (snd (fit t stop o)).
Proof.
  unfold LcObjModel.fit.
  match goal with |- framed o (snd (match ?s with Go _ => _ | Leave _ _ => _ end)) => assert (F : framed o (obj s)) end.
  { apply andthen_framed; [eapply framed_trans; [|apply checkpoint_framed]; apply dist_framed|]. intros o1. apply andthen_framed; [|apply fit_framed].
    destruct (o_auto o1) eqn:E; [|apply framed_refl]. apply andthen_framed; [apply bw_framed, E|apply checkpoint_framed]. }
  revert F. match goal with |- framed o (obj ?s) -> _ => destruct s; exact (fun H => H) end.
Qed.
Lemma predict_frames t loc stop o : framed o (snd (predict t loc stop o)) /\ o_diag (snd (predict t loc stop o)) = o_diag o /\ o_weight (snd (predict t loc stop o)) = o_weight o.
Proof.
  unfold LcObjModel.predict, LcObjModel.checkpoint. destruct (stop 0%nat); cbn [andthen]; [repeat split; auto|]. unfold LcObjModel.pred_stage. fields.
  destruct (o_omp o) eqn:E.
  - destruct (Nat.eqb (rows loc) 0 || skipped t); [|repeat split; auto]. unfold LcObjModel.checkpoint. destruct (stop 1%nat); cbn [andthen snd]; repeat split; fields; auto. intros ->. reflexivity.
  - destruct (pred t (o_xy o) (Some (loc, o_crd o)) (o_par o) (o_weight o)) as [[m st]| |]; [|repeat split; auto..].
    unfold LcObjModel.checkpoint. destruct (stop 1%nat); cbn [andthen snd]; repeat split; fields; auto. intros ->. reflexivity.
Qed.
Lemma kept_main : forall (o : object) t stop loc,
  kept o (snd (fit t stop o)) /\ kept o (snd (predict t loc stop o)) /\ o_weight (snd (predict t loc stop o)) = o_weight o /\ o_diag (snd (predict t loc stop o)) = o_diag o.
Proof. intros o t stop loc. split; [apply fit_frames|]. destruct (predict_frames t loc stop o) as ([A _] & B & C). split; [exact A|]. split; assumption. Qed.
Lemma sticky_main : forall cs (o : object), o_term o = true -> o_term (run cs o) = true.
Proof.
  intros cs. induction cs as [|c cs IH]; intros o H; [exact H|]. cbn [LcObjModel.run]. apply IH.
  destruct c; try exact H; [apply fit_frames, H|apply predict_frames, H].
Qed.
Lemma setters_main : forall c d p w a b (o : object),
  let set s v := fst (step s o) = Done /\ settings (snd (step s o)) = v /\ outputs (snd (step s o)) = outputs o in
  set (SetCoords c) (c, o_xy o, o_par o, o_weight o, o_dist o, o_auto o, o_omp o) /\
  set (SetData d) (o_crd o, d, o_par o, o_weight o, o_dist o, o_auto o, o_omp o) /\
  set (SetPar p) (o_crd o, o_xy o, p, o_weight o, o_dist o, o_auto o, o_omp o) /\
  set (SetWeight w) (o_crd o, o_xy o, o_par o, w, None, o_auto o, o_omp o) /\
  set (SetAuto a) (o_crd o, o_xy o, o_par o, o_weight o, o_dist o, a, o_omp o) /\
  set (SetOmp b) (o_crd o, o_xy o, o_par o, o_weight o, o_dist o, o_auto o, b).
Proof. intros. repeat split. Qed.

(** ** Results. *)
Lemma fit_stage_inv t stop o : exists a o', fit_stage t stop o = Leave a o' /\ o_weight o' = o_weight o /\
  match a with
  | Matrix m => exists tr st, reg t (o_omp o) (o_xy o) (o_dist o) (o_par o) (o_weight o) = Ok (m, tr, st) /\ o_betas o' = m /\
      o_traces o' = (if o_omp o then tr else plus (o_traces o) tr) /\ o_diag o' = diagnose (o_crd o) (o_xy o) m (o_traces o') /\ (st = true -> o_term o' = true)
  | Zeros r c => r = rows (o_crd o) /\ c = columns (o_xy o) /\ o_term o' = true
  | Done => False
  | _ => True
  end.
Proof.
  unfold LcObjModel.fit_stage. destruct (reg t (o_omp o) (o_xy o) (o_dist o) (o_par o) (o_weight o)) as [[[m tr] st]| |] eqn:E; [|eexists _, _; repeat split..].
  cbv zeta. unfold LcObjModel.checkpoint. destruct (stop 2%nat); cbn [andthen]; eexists _, _; (split; [reflexivity|]); (split; [reflexivity|]); fields; [repeat split|].
  exists tr, st. repeat split. intros ->. apply orb_true_r.
Qed.
Lemma bw_stage_keeps t o o' : bw_stage t o = Go o' -> o_crd o' = o_crd o /\ o_xy o' = o_xy o /\ o_par o' = o_par o /\ o_dist o' = o_dist o /\ o_omp o' = o_omp o /\ o_traces o' = o_traces o /\ o_betas o' = o_betas o /\ o_diag o' = o_diag o.
Proof.
  unfold LcObjModel.bw_stage. cbv zeta. destruct (rresult _) as [|w| |]; try discriminate; intros E; injection E as <-; repeat split.
Qed.
Lemma result_main : forall (o : object) t stop,
  let o' := snd (fit t stop o) in
  match fst (fit t stop o) with
  | Matrix m => exists tr st, reg t (o_omp o) (o_xy o) (Some (o_crd o, o_crd o)) (o_par o) (o_weight o') = Ok (m, tr, st) /\ o_betas o' = m /\
      o_traces o' = (if o_omp o then tr else plus (o_traces o) tr) /\ o_diag o' = diagnose (o_crd o) (o_xy o) m (o_traces o') /\ (st = true -> o_term o' = true)
  | Zeros r c => r = rows (o_crd o) /\ c = columns (o_xy o) /\ o_term o' = true
  | Done => False
  | _ => True
  end.
Proof.
  intros o t stop. unfold LcObjModel.fit, LcObjModel.checkpoint. destruct (stop 0%nat); cbn [andthen fst snd]; [repeat split|]. fields.
  destruct (o_auto o).
  - destruct (bw_stage t (set_dist (o_crd o, o_crd o) o)) as [o1|a o1] eqn:E; cbn [andthen].
    + destruct (bw_stage_keeps _ _ _ E) as (B1 & B2 & B3 & B4 & B5 & B6 & _). unfold LcObjModel.checkpoint. destruct (stop 1%nat); cbn [andthen fst snd].
      { fields. rewrite B1, B2. repeat split. }
      destruct (fit_stage_inv t stop o1) as (a & o' & F & W & H). rewrite F. cbn [fst snd]. rewrite B1, B2, B3, B4, B5, B6 in H. rewrite W. exact H.
    + unfold LcObjModel.bw_stage in E. cbv zeta in E. destruct (rresult _) as [|w| |]; try discriminate; injection E as <- <-; exact I.
  - cbn [andthen]. destruct (fit_stage_inv t stop (set_dist (o_crd o, o_crd o) o)) as (a & o' & F & W & H). rewrite F. cbn [fst snd]. rewrite W. exact H.
Qed.

(** Without selection. *)
Lemma plain_main : forall (o : object) t stop m tr st, o_auto o = false -> quiet stop ->
  reg t (o_omp o) (o_xy o) (Some (o_crd o, o_crd o)) (o_par o) (o_weight o) = Ok (m, tr, st) ->
  let tr' := if o_omp o then tr else plus (o_traces o) tr in
  fit t stop o = (Matrix m, Object (o_crd o) (o_xy o) (o_par o) (o_weight o) (Some (o_crd o, o_crd o)) false (o_omp o) tr' m
    (diagnose (o_crd o) (o_xy o) m tr') (o_blist o) (o_term o || st)).
Proof.
  intros o t stop m tr st AU Q F. cbv zeta. unfold LcObjModel.fit, LcObjModel.checkpoint. rewrite (Q 0%nat). cbn [andthen]. fields. rewrite AU. cbn [andthen].
  unfold LcObjModel.fit_stage. fields. rewrite F. cbv zeta. unfold LcObjModel.checkpoint. rewrite (Q 2%nat). cbn [andthen]. opens. fields. rewrite AU. reflexivity.
Qed.
Lemma plus_times k a : plus (times k a) a = times (S k) a.
Proof. unfold plus, times. cbn [fst snd]. rewrite S_INR. f_equal; ring. Qed.
Lemma many_main : forall k (o : object) t stop m tr, o_auto o = false -> o_omp o = false -> o_traces o = (0, 0) -> quiet stop ->
  reg t false (o_xy o) (Some (o_crd o, o_crd o)) (o_par o) (o_weight o) = Ok (m, tr, false) ->
  let o' := run (repeat (Fit t stop) (S k)) o in
  o_betas o' = m /\ o_traces o' = times (S k) tr /\ o_diag o' = diagnose (o_crd o) (o_xy o) m (times (S k) tr).
Proof.
  intros k o t stop m tr AU OM T0 Q F. cbv zeta.
  assert (G : forall k (o1 : object) j, o_auto o1 = false -> o_omp o1 = false -> o_traces o1 = times j tr ->
    o_crd o1 = o_crd o -> o_xy o1 = o_xy o -> o_par o1 = o_par o -> o_weight o1 = o_weight o ->
    let o' := run (repeat (Fit t stop) (S k)) o1 in
    o_betas o' = m /\ o_traces o' = times (S (j + k)) tr /\ o_diag o' = diagnose (o_crd o) (o_xy o) m (times (S (j + k)) tr)).
  { clear k. induction k as [|k IH]; intros o1 j A1 A2 A3 A4 A5 A6 A7; cbv zeta;
      (assert (E : fit t stop o1 = (Matrix m, Object (o_crd o1) (o_xy o1) (o_par o1) (o_weight o1) (Some (o_crd o1, o_crd o1)) false false (times (S j) tr) m
        (diagnose (o_crd o1) (o_xy o1) m (times (S j) tr)) (o_blist o1) (o_term o1 || false)))
        by (rewrite (plain_main o1 t stop m tr false A1 Q) by (rewrite A2, A4, A5, A6, A7; exact F); rewrite A2, A3, plus_times; reflexivity)).
    - cbn [repeat LcObjModel.run LcObjModel.step]. rewrite E. cbn [snd]. fields. rewrite A4, A5, Nat.add_0_r. repeat split.
    - change (repeat (Fit t stop) (S (S k))) with (@Fit Crd XY Par Tel t stop :: repeat (Fit t stop) (S k)).
      change (run (Fit t stop :: repeat (Fit t stop) (S k)) o1) with (run (repeat (Fit t stop) (S k)) (snd (fit t stop o1))). rewrite E. cbn [snd].
      replace (j + S k)%nat with (S j + k)%nat by lia. apply IH; fields; auto. }
  apply (G k o 0%nat); auto. rewrite T0. unfold times. cbn [INR]. f_equal; ring.
Qed.

(** With selection: a second fit chooses the same. *)
Lemma optimize_value crit w w' lo up m : wkernel w = wkernel w' -> wadaptive w = wadaptive w' -> optimize crit w lo up m = optimize crit w' lo up m.
Proof.
  intros K A. assert (L : forall fuel st, loop fuel crit w st = loop fuel crit w' st).
  { induction fuel as [|n IH]; intros st; cbn [loop]; [reflexivity|]. destruct (guard st); [|reflexivity].
    unfold GoldModel.step. rewrite K, A. destruct (xltb (f1 st) (f2 st)).
    - destruct (crit (calls st) (mkWeight (wkernel w') (wadaptive w') (if wadaptive w' then rround (x2 st + golden * dd st) else x2 st + golden * dd st))); [apply IH|reflexivity].
    - destruct (crit (calls st) (mkWeight (wkernel w') (wadaptive w') (if wadaptive w' then rfloor (x1 st - golden * dd st) else x1 st - golden * dd st))); [apply IH|reflexivity]. }
  assert (F1 : first_weight w lo up = first_weight w' lo up) by (unfold first_weight; rewrite K, A; reflexivity).
  assert (F2 : second_weight w lo up = second_weight w' lo up) by (unfold second_weight; rewrite K, A; reflexivity).
  assert (Iv : forall v1 v2, init_vars w lo up m v1 v2 = init_vars w' lo up m v1 v2) by (intros v1 v2; unfold init_vars; rewrite F1, F2; reflexivity).
  unfold optimize. rewrite F1, F2, K, A. destruct (crit 0%nat (first_weight w' lo up)) as [ok1 v1|]; [|reflexivity].
  destruct (crit 1%nat (second_weight w' lo up)) as [ok2 v2|]; [|reflexivity]. rewrite Iv, L. reflexivity.
Qed.
Lemma repeat_main : forall (o o' : object) t stop m, quiet stop -> fit t stop o = (Matrix m, o') -> o_term o' = o_term o ->
  fst (fit t stop o') = Matrix m /\ same_settings o' (snd (fit t stop o')).
Proof.
  intros o o' t stop m Q F T.
  pose proof (result_main o t stop) as RM. cbv zeta in RM. rewrite F in RM. cbn [fst snd] in RM. destruct RM as (tr & st & R1 & R2 & R3 & R4 & R5).
  pose proof (fit_frames t stop o) as Fr. rewrite F in Fr. cbn [snd] in Fr. destruct Fr as [(K1 & K2 & K3 & K4 & K5 & K6 & K7 & K8) _].
  destruct (o_auto o) eqn:AU.
  - (* selection *)
    assert (B : exists o2, bw_stage t (set_dist (o_crd o, o_crd o) o) = Go o2 /\ o_weight o' = o_weight o2 /\ o_term o' = o_term o2 || st).
    { unfold LcObjModel.fit, LcObjModel.checkpoint in F. rewrite (Q 0%nat) in F. cbn [andthen] in F. revert F. fields. rewrite AU. intros F.
      destruct (bw_stage t (set_dist (o_crd o, o_crd o) o)) as [o2|a o2] eqn:E; cbn [andthen] in F.
      - exists o2. split; [reflexivity|]. destruct (bw_stage_keeps _ _ _ E) as (B1 & B2 & B3 & B4 & B5 & B6 & _).
        unfold LcObjModel.checkpoint in F. rewrite (Q 1%nat) in F. cbn [andthen] in F. unfold LcObjModel.fit_stage in F.
        rewrite B2, B3, B4, B5 in F. cbn [o_xy o_par o_omp o_dist set_dist] in F.
        assert (W : o_weight o' = o_weight o2).
        { destruct (reg t (o_omp o) (o_xy o) (Some (o_crd o, o_crd o)) (o_par o) (o_weight o2)) as [[[m1 tr1] st1]| |]; try discriminate.
          cbv zeta in F. unfold LcObjModel.checkpoint in F. rewrite (Q 2%nat) in F. cbn [andthen] in F. injection F as _ <-. reflexivity. }
        rewrite <- W, R1 in F. cbv zeta in F. unfold LcObjModel.checkpoint in F. rewrite (Q 2%nat) in F. cbn [andthen] in F.
        injection F as F1. split; [exact W|rewrite <- F1; reflexivity].
      - exfalso. unfold LcObjModel.bw_stage in E. cbv zeta in E. destruct (rresult _) as [|w| |]; try discriminate; injection E as <- <-; discriminate. }
    destruct B as (o2 & B1 & B2 & B3).
    assert (B' : exists o3, bw_stage t (set_dist (o_crd o', o_crd o') o') = Go o3 /\ o_weight o3 = o_weight o' /\ o_term o3 || st = o_term o' /\ o_xy o3 = o_xy o' /\ o_par o3 = o_par o' /\ o_omp o3 = o_omp o' /\ o_dist o3 = Some (o_crd o', o_crd o') /\ o_crd o3 = o_crd o' /\ o_auto o3 = o_auto o').
    { assert (Cr : forall (a b : object), o_term a = o_term b -> o_omp a = o_omp b -> o_xy a = o_xy b -> o_dist a = o_dist b -> o_par a = o_par b -> bw_criterion t a = bw_criterion t b).
      { intros [] [] H1 H2 H3 H4 H5. cbn in *. subst. reflexivity. }
      revert B1. unfold LcObjModel.bw_stage. fields. cbv zeta. rewrite K7, K1.
      rewrite (Cr (set_dist (o_crd o, o_crd o) o') (set_dist (o_crd o, o_crd o) o)) by (fields; auto).
      rewrite (optimize_value _ (o_weight o') (o_weight o)) by assumption.
      set (lo := if wadaptive (o_weight o) then 20 else 0). set (up := if wadaptive (o_weight o) then _ else _).
      destruct (rresult (optimize (bw_criterion t (set_dist (o_crd o, o_crd o) o)) (o_weight o) lo up [])) as [|w| |]; intros E; try discriminate; injection E as <-.
      - cbn [o_term set_term] in B3. eexists. split; [reflexivity|]. fields. rewrite B3. repeat split; auto.
      - cbn [o_weight set_bw] in B2. cbn [o_term set_bw set_dist] in B3. eexists. split; [reflexivity|]. fields. repeat split; auto. rewrite T. congruence. }
    destruct B' as (o3 & C1 & C2 & C3 & C4 & C5 & C6 & C7 & C8 & C9).
    assert (E : fit t stop o' = (Matrix m, snd (fit t stop o')) /\ same_settings o' (snd (fit t stop o'))).
    { unfold LcObjModel.fit, LcObjModel.checkpoint. rewrite (Q 0%nat). cbn [andthen]. fields. rewrite K4, C1. cbn [andthen].
      unfold LcObjModel.checkpoint. rewrite (Q 1%nat). cbn [andthen]. unfold LcObjModel.fit_stage. rewrite C2, C4, C5, C6, C7, K1, K2, K3, K5, R1. cbv zeta.
      unfold LcObjModel.checkpoint. rewrite (Q 2%nat). cbn [andthen snd]. split; [reflexivity|]. unfold same_settings. fields. rewrite C2, C3, C4, C5, C6, C8, C9. repeat split. }
    destruct E as [E1 E2]. split; [rewrite E1; reflexivity|exact E2].
  - rewrite (K8 eq_refl) in R1.
    pose proof (plain_main o t stop m tr st AU Q R1) as P. cbv zeta in P. rewrite F in P. assert (P' : o' = snd (Matrix (Mat := Mat) m, o')) by reflexivity. rewrite P in P'. cbn [snd] in P'.
    rewrite <- K1, <- K2, <- K3, <- K5, <- (K8 eq_refl) in R1.
    pose proof (plain_main o' t stop m tr st K4 Q R1) as P2. cbv zeta in P2. rewrite P2. cbn [fst snd]. split; [reflexivity|].
    unfold same_settings. fields. rewrite T. assert (T2 : o_term o || st = o_term o) by (rewrite P' in T; exact T). rewrite T2. repeat split; auto.
Qed.

(** A Terminated object does not select. *)
Lemma disabled_main : forall (o : object) t stop, o_term o = true -> o_auto o = true -> quiet stop -> (forall k w, snd (cv t k (o_omp o) (o_xy o) (Some (o_crd o, o_crd o)) (o_par o) w) <> None) ->
  fst (fit t stop o) = fst (fit t stop (snd (step (SetAuto false) o))) /\ o_weight (snd (fit t stop o)) = o_weight o /\ (forall m, fst (fit t stop o) = Matrix m -> o_blist (snd (fit t stop o)) = []).
Proof.
  intros o t stop T AU Q N.
  assert (B : bw_stage t (set_dist (o_crd o, o_crd o) o) = Go (set_term true (set_bw (o_weight o) [] (set_dist (o_crd o, o_crd o) o)))).
  { unfold LcObjModel.bw_stage. fields. cbv zeta. set (lo := if wadaptive (o_weight o) then 20 else 0). set (up := if wadaptive (o_weight o) then _ else _).
    assert (Cr : forall k w, bw_criterion t (set_dist (o_crd o, o_crd o) o) k w = Answer false (XF DBL_MAX)).
    { intros k w. unfold LcObjModel.bw_criterion. fields. specialize (N k w). destruct (cv t k (o_omp o) (o_xy o) (Some (o_crd o, o_crd o)) (o_par o) w) as [st [v|]]; cbn [snd] in N; [|congruence].
      rewrite T. reflexivity. }
    unfold optimize. rewrite !Cr. cbn [andb negb rresult rmap]. reflexivity. }
  cbn [LcObjModel.step snd].
  unfold LcObjModel.fit, LcObjModel.checkpoint. rewrite (Q 0%nat), (Q 1%nat). cbn [andthen]. fields. rewrite AU, B. cbn [andthen].
  unfold LcObjModel.fit_stage. fields.
  destruct (reg t (o_omp o) (o_xy o) (Some (o_crd o, o_crd o)) (o_par o) (o_weight o)) as [[[m tr] st]| |]; cbv zeta; cbn [andthen fst snd];
    [|split; [reflexivity|split; [reflexivity|discriminate]]..].
  unfold LcObjModel.checkpoint. rewrite (Q 2%nat). cbn [andthen fst snd]. split; [reflexivity|]. split; reflexivity.
Qed.

(** ** Prediction. *)
Lemma predict_main : forall (o : object) t loc stop m st, o_omp o = false -> quiet stop ->
  pred t (o_xy o) (Some (loc, o_crd o)) (o_par o) (o_weight o) = Ok (m, st) ->
  predict t loc stop o = (Matrix m, Object (o_crd o) (o_xy o) (o_par o) (o_weight o) (Some (loc, o_crd o)) (o_auto o) false (o_traces o) m (o_diag o) (o_blist o) (o_term o || st)).
Proof.
  intros o t loc stop m st OM Q F. unfold LcObjModel.predict, LcObjModel.checkpoint. rewrite (Q 0%nat). cbn [andthen]. unfold LcObjModel.pred_stage. fields. rewrite OM, F.
  unfold LcObjModel.checkpoint. rewrite (Q 1%nat). cbn [andthen]. opens. fields. rewrite OM. reflexivity.
Qed.
Lemma shape_main : forall (o : object) t loc stop r c, fst (predict t loc stop o) = Zeros r c -> r = rows (o_crd o) /\ c = columns (o_xy o).
Proof.
  intros o t loc stop r c. unfold LcObjModel.predict, LcObjModel.checkpoint. destruct (stop 0%nat); cbn [andthen]; [intros E; injection E as <- <-; split; reflexivity|].
  unfold LcObjModel.pred_stage. fields. destruct (o_omp o).
  - destruct (Nat.eqb (rows loc) 0 || skipped t); [|discriminate]. unfold LcObjModel.checkpoint. destruct (stop 1%nat); cbn [andthen fst]; [|discriminate].
    intros E. injection E as <- <-. split; reflexivity.
  - destruct (pred t (o_xy o) (Some (loc, o_crd o)) (o_par o) (o_weight o)) as [[m st]| |]; try discriminate. unfold LcObjModel.checkpoint. destruct (stop 1%nat); cbn [andthen fst]; [|discriminate].
    intros E. injection E as <- <-. split; reflexivity.
Qed.
Lemma stopped_main : forall (o : object) t loc stop, stop 0%nat = true -> fst (predict t loc stop o) = Zeros (rows (o_crd o)) (columns (o_xy o)).
Proof. intros o t loc stop S0. unfold LcObjModel.predict, LcObjModel.checkpoint. rewrite S0. reflexivity. Qed.
Lemma shape_refuted_main : forall (o : object) t loc stop, stop 0%nat = true -> rows loc <> rows (o_crd o) ->
  exists r, fst (predict t loc stop o) = Zeros r (columns (o_xy o)) /\ r <> rows loc.
Proof. intros o t loc stop S0 N. exists (rows (o_crd o)). split; [apply stopped_main, S0|congruence]. Qed.
Lemma omp_main : forall (o : object) t loc stop, o_omp o = true -> stop 0%nat = false ->
  ((0 < rows loc)%nat -> skipped t = false -> fst (predict t loc stop o) = Undefined) /\
  (rows loc = 0%nat -> o_traces (snd (predict t loc stop o)) = (0, 0)).
Proof.
  intros o t loc stop OM S0. unfold LcObjModel.predict, LcObjModel.checkpoint. rewrite S0. cbn [andthen]. unfold LcObjModel.pred_stage. fields. rewrite OM. split.
  - intros P K. rewrite K. destruct (Nat.eqb_spec (rows loc) 0); [lia|]. reflexivity.
  - intros ->. cbn [Nat.eqb orb]. unfold LcObjModel.checkpoint. destruct (stop 1%nat); reflexivity.
Qed.

(** ** Cancelled late, or thrown. *)
Lemma late_main : forall (o : object) t stop m tr st, o_auto o = false -> stop 0%nat = false -> stop 2%nat = true ->
  reg t (o_omp o) (o_xy o) (Some (o_crd o, o_crd o)) (o_par o) (o_weight o) = Ok (m, tr, st) ->
  let r := fit t stop o in
  fst r = Zeros (rows (o_crd o)) (columns (o_xy o)) /\ o_betas (snd r) = m /\ o_traces (snd r) = (if o_omp o then tr else plus (o_traces o) tr) /\ o_diag (snd r) = o_diag o.
Proof.
  intros o t stop m tr st AU S0 S2 F. cbv zeta. unfold LcObjModel.fit, LcObjModel.checkpoint. rewrite S0. cbn [andthen]. fields. rewrite AU. cbn [andthen].
  unfold LcObjModel.fit_stage. fields. rewrite F. cbv zeta. unfold LcObjModel.checkpoint. rewrite S2. cbn [andthen fst snd]. repeat split.
Qed.
Lemma thrown_main : forall (o : object) t stop, o_auto o = false -> stop 0%nat = false ->
  reg t (o_omp o) (o_xy o) (Some (o_crd o, o_crd o)) (o_par o) (o_weight o) = Throw ->
  let r := fit t stop o in
  fst r = Threw /\ o_betas (snd r) = o_betas o /\ o_diag (snd r) = o_diag o /\ o_term (snd r) = o_term o /\
  o_traces (snd r) = plus (o_traces o) (lost t (o_xy o) (Some (o_crd o, o_crd o)) (o_par o) (o_weight o)).
Proof.
  intros o t stop AU S0 F. cbv zeta. unfold LcObjModel.fit, LcObjModel.checkpoint. rewrite S0. cbn [andthen]. fields. rewrite AU. cbn [andthen].
  unfold LcObjModel.fit_stage. fields. rewrite F. cbv zeta. cbn [fst snd]. repeat split.
Qed.

(** ** Few points. *)
Lemma fit_stage_blist t stop o : o_blist (obj (fit_stage t stop o)) = o_blist o.
Proof.
  unfold LcObjModel.fit_stage. destruct (reg t (o_omp o) (o_xy o) (o_dist o) (o_par o) (o_weight o)) as [[[m tr] st]| |]; [|reflexivity..].
  cbv zeta. unfold LcObjModel.checkpoint. destruct (stop 2%nat); reflexivity.
Qed.
Lemma small_main : forall (o : object) t stop m g, o_auto o = true -> wadaptive (o_weight o) = true -> (rows (o_crd o) <= 17)%nat -> o_term o = false -> quiet stop ->
  (forall k w, cv t k (o_omp o) (o_xy o) (Some (o_crd o, o_crd o)) (o_par o) w = (false, Some (XF (g w)))) -> (forall w, Rabs (g w) < DBL_MAX) ->
  fst (fit t stop o) = Matrix m ->
  exists b v, In (b, v) (o_blist (snd (fit t stop o))) /\ b > INR (rows (o_crd o)).
Proof.
  intros o t stop m g AU AD N T Q C G F.
  set (d := set_dist (o_crd o, o_crd o) o) in *.
  assert (Cr : forall k w, bw_criterion t d k w = Answer true (XF (g w))).
  { intros k w. unfold LcObjModel.bw_criterion, d. fields. rewrite C, T. reflexivity. }
  set (n := INR (rows (o_crd o))). assert (N' : n <= 17) by (apply le_INR in N; unfold n; cbn in N; lra).
  set (r := optimize (bw_criterion t d) (o_weight o) 20 n []).
  assert (V : forall w, valid (XF (g w))) by (intros w; unfold valid; cbn [xltb]; apply Rltb_true; specialize (G w); apply Rabs_def2 in G; lra).
  assert (SW : starts_well (bw_criterion t d) (o_weight o) 20 n).
  { unfold starts_well. exists (XF (g (first_weight (o_weight o) 20 n))), (XF (g (second_weight (o_weight o) 20 n))). rewrite !Cr. repeat split. intros [E _]. injection E as E. pose proof (G (first_weight (o_weight o) 20 n)) as G1. apply Rabs_def2 in G1. lra. }
  assert (CO : consistent (bw_criterion t d)).
  { intros k1 k2 w1 ok1 ok2 v1 v2. rewrite !Cr. intros. congruence. }
  pose proof (proj2 (C27_list_partial _ _ _ _ CO SW)) as L. cbv zeta in L. fold r in L.
  assert (Big : wvalue (first_weight (o_weight o) 20 n) > n).
  { unfold first_weight. rewrite AD. cbn [wvalue]. unfold rfloor. set (x := 20 + golden * (n - 20)).
    pose proof golden_bounds as GB. assert (X : n + 1 <= x) by (unfold x; nra). destruct (base_Int_part x). lra. }
  assert (Ev : evaluated r (first_weight (o_weight o) 20 n) (XF (g (first_weight (o_weight o) 20 n)))).
  { set (w1 := first_weight (o_weight o) 20 n).
    assert (K : forall st st', In (w1, XF (g w1)) (elog st) -> guard st = true -> GoldModel.step (bw_criterion t d) (o_weight o) st = Some st' -> In (w1, XF (g w1)) (elog st')).
    { intros st st' I _ S. unfold GoldModel.step in S. rewrite !Cr in S. destruct (xltb (f1 st) (f2 st)); injection S as <-; cbn [elog]; right; exact I. }
    assert (Z : forall v1 v2 st, bw_criterion t d 0%nat w1 = Answer true v1 -> passes (bw_criterion t d) (o_weight o) (init_vars (o_weight o) 20 n [] v1 v2) st -> In (w1, XF (g w1)) (elog st)).
    { intros v1 v2 st H P. rewrite Cr in H. injection H as <-. eapply (passes_inv _ _ (fun st => In (w1, XF (g w1)) (elog st)) K _ _ P). unfold init_vars. cbn [elog]. right. left. reflexivity. }
    unfold evaluated, r. destruct (optimize_cases (bw_criterion t d) (o_weight o) 20 n []) as
      [H|? ? ? H|ok1 v1 ok2 v2 H1 H2 H3|v1 v2 H1 H2 H3 H4|v1 v2 st H1 H2 M P Gd S|v1 v2 st H1 H2 M P Gd S|v1 v2 st H1 H2 M P Gd S]; cbn [rlog];
      try (rewrite Cr in *; discriminate); [| |eapply Z; eassumption..]; rewrite Cr in H1; injection H1; intros; subst; right; left; reflexivity. }
  exists (wvalue (first_weight (o_weight o) 20 n)), (XF (g (first_weight (o_weight o) 20 n))). split; [|exact Big].
  assert (In1 := proj2 (L _ _) (ex_intro _ (first_weight (o_weight o) 20 n) (conj Ev (conj eq_refl (V _))))).
  replace (o_blist (snd (fit t stop o))) with (bandwidth_criterion (rmap r)); [exact In1|]. clear - F Q AU AD.
  revert F. unfold LcObjModel.fit, LcObjModel.checkpoint. rewrite (Q 0%nat), (Q 1%nat). cbn [andthen]. fields. rewrite AU. fold d. unfold LcObjModel.bw_stage. cbv zeta.
  change (o_weight d) with (o_weight o). rewrite AD. change (INR (rows (o_crd d))) with n. fold r.
  assert (B : forall o1, o_blist (snd (match fit_stage t stop o1 with Go o' => (Undefined, o') | Leave a o' => (a, o') end)) = o_blist o1).
  { intros o1. rewrite <- (fit_stage_blist t stop o1). destruct (fit_stage t stop o1); reflexivity. }
  destruct (rresult r) as [|w| |]; cbn [andthen]; [| |discriminate..]; intros _; rewrite B; reflexivity.
Qed.


End P.
