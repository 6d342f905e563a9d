(** Robust objects over several calls. *)
From Coq Require Import Reals Bool List Arith Lra Lia.
From Verif Require Import Outcome XReal XRealFacts KernelModel GoldModel VarModel GlmModel RobModel FlowModel RobFlowModel RobFlowSpec.
Import ListNotations.
Set Implicit Arguments.

Section P.
Variables C B : Type.
Implicit Types (o : object C) (r : robust C) (G : setting C B).

Lemma without_id o : o_lower o = None -> o_upper o = None -> without_bounds o = o.
Proof. destruct o; cbn. intros -> ->. reflexivity. Qed.
Lemma with_id o : o_lower o = None -> o_upper o = None -> with_bounds None None o = o.
Proof. destruct o; cbn. intros -> ->. reflexivity. Qed.
Lemma bw_bounds W o o' : bw_stage (B := B) W o = Go o' -> o_lower o' = o_lower o /\ o_upper o' = o_upper o /\ o_auto_bw o' = o_auto_bw o.
Proof.
  unfold bw_stage. destruct (rresult _); intros H; inversion H; subst; destruct o; cbn; auto.
Qed.
Lemma select_bounds W srt o o' : select_stage (B := B) W srt o = Go o' -> o_lower o' = o_lower o /\ o_upper o' = o_upper o /\ o_auto_bw o' = o_auto_bw o.
Proof.
  unfold select_stage. destruct (vs_optimize _ _ _ _) as [[sel rep]| |]; try discriminate.
  destruct sel as [|a sel].
  - intros H; inversion H; subst. destruct rep, o; cbn; auto.
  - destruct (cols _ _); try discriminate. destruct (named_list _ _); try discriminate. intros H; inversion H; subst. destruct rep, o; cbn; auto.
Qed.
Lemma robust_bw W o : o_lower o = None -> o_upper o = None -> robust_bw_stage (B := B) W o =
  match bw_stage W o with Go o' => Go o' | Failed o' => Failed (with_bounds None None o') | Undef => Undef end.
Proof.
  intros L U. unfold robust_bw_stage. rewrite without_id by assumption. destruct (bw_stage W o) as [o'|o'|] eqn:E; rewrite ?L, ?U; auto.
  destruct (bw_bounds _ _ E) as (A & D & _). rewrite with_id by congruence. reflexivity.
Qed.
Lemma regression_choice G f o v r : robust_regression G f o = RReturned v r -> same_choice (r_base r) o.
Proof.
  unfold robust_regression. destruct f; [|discriminate]. destruct (calibrate _ _ _ _ _ _ _ _) as [[b0 made]| |]; try discriminate.
  destruct (s_stop_end G); intros H; inversion H; subst; destruct o; repeat split.
Qed.
Lemma same_refl o : same_choice o o. Proof. repeat split. Qed.
Lemma same_term t o : same_choice (set_terminated t o) o. Proof. destruct o; repeat split. Qed.
Lemma same_trans o1 o2 o3 : same_choice o1 o2 -> same_choice o2 o3 -> same_choice o1 o3.
Proof. unfold same_choice. intuition congruence. Qed.
Lemma same_sym o1 o2 : same_choice o1 o2 -> same_choice o2 o1.
Proof. unfold same_choice. intuition congruence. Qed.

Lemma selects_main G srt r v r' v2 o2 : o_lower (r_base r) = None -> o_upper (r_base r) = None ->
  robust_fit G srt r = RReturned v r' -> flow_fit (s_world G) srt (r_base r) = Returned v2 o2 -> same_choice (r_base r') o2.
Proof.
  intros L U. unfold robust_fit, flow_fit, checkpoint. set (W := s_world G).
  assert (ST : forall o (x : rfinished C B), RReturned (Zeros (w_n W) (length (o_x o))) (mkRobust (set_terminated true o) (r_filtered r)) = RReturned v r' -> same_choice (r_base r') o).
  { intros o _ H; inversion H; subst. cbn [r_base]. apply same_term. }
  assert (FIN : forall o, match w_final W (o_x o) (o_weight o) with
      | Ok (b, stopped) => Returned (Coefficients b) (set_terminated (o_terminated o || stopped) o) | Throw => Threw o | UB => Undefined end = Returned v2 o2 -> same_choice o o2).
  { intros o. destruct (w_final _ _ _) as [[b s]| |]; intros H; inversion H; subst. apply same_sym, same_term. }
  assert (ST2 : forall o, Returned (Zeros (w_n W) (length (o_x o))) (set_terminated true o) = Returned v2 o2 -> same_choice o o2).
  { intros o H; inversion H; subst. apply same_sym, same_term. }
  assert (BW : forall o, o_lower o = None -> o_upper o = None ->
     (if o_auto_bw o then match robust_bw_stage W o with
        | Go o' => if w_stop2 W then RReturned (Zeros (w_n W) (length (o_x o'))) (mkRobust (set_terminated true o') (r_filtered r)) else robust_regression G (r_filtered r) o'
        | Failed o' => RThrew (mkRobust o' (r_filtered r)) | Undef => @RUndefined C B end
      else robust_regression G (r_filtered r) o) = RReturned v r' ->
     (if o_auto_bw o then match bw_stage W o with
        | Go o' => if w_stop2 W then Returned (Zeros (w_n W) (length (o_x o'))) (set_terminated true o')
                   else match w_final W (o_x o') (o_weight o') with Ok (b, stopped) => Returned (Coefficients b) (set_terminated (o_terminated o' || stopped) o') | Throw => Threw o' | UB => Undefined end
        | Failed o' => Threw o' | Undef => Undefined end
      else match w_final W (o_x o) (o_weight o) with Ok (b, stopped) => Returned (Coefficients b) (set_terminated (o_terminated o || stopped) o) | Throw => Threw o | UB => Undefined end) = Returned v2 o2 ->
     same_choice (r_base r') o2).
  { intros o Lo Uo. rewrite robust_bw by assumption. destruct (o_auto_bw o).
    - destruct (bw_stage W o) as [o'|o'|]; try discriminate. destruct (w_stop2 W).
      + intros H1 H2. eapply same_trans; [apply (ST o' (@RUndefined C B)); exact H1|apply ST2; exact H2].
      + intros H1 H2. eapply same_trans; [eapply regression_choice; exact H1|apply FIN; exact H2].
    - intros H1 H2. eapply same_trans; [eapply regression_choice; exact H1|apply FIN; exact H2]. }
  destruct (w_stop0 W).
  - intros H1 H2. eapply same_trans; [apply (ST _ (@RUndefined C B)); exact H1|apply ST2; exact H2].
  - destruct (o_auto_vars (r_base r)).
    + destruct (select_stage W srt (r_base r)) as [o'|o'|] eqn:E; try discriminate. destruct (select_bounds _ _ _ E) as (A & D & _). destruct (w_stop1 W).
      * intros H1 H2. eapply same_trans; [apply (ST o' (@RUndefined C B)); exact H1|apply ST2; exact H2].
      * apply BW; congruence.
    + apply BW; assumption.
Qed.

(** The coefficients are those of the calibration. *)
Lemma result_main G srt r b r' : robust_fit G srt r = RReturned (Coefficients b) r' ->
  exists f made, r_filtered r = Some f /\ let o := r_base r' in
  calibrate B (w_n (s_world G)) (s_fit G (o_x o) (o_weight o)) (s_resid G (o_x o)) (s_stud G (o_x o) (o_weight o)) (s_stop G) (s_zero G) f = Ok (b, made).
Proof.
  assert (REG : forall o, robust_regression G (r_filtered r) o = RReturned (Coefficients b) r' -> exists f made, r_filtered r = Some f /\ let o := r_base r' in
    calibrate B (w_n (s_world G)) (s_fit G (o_x o) (o_weight o)) (s_resid G (o_x o)) (s_stud G (o_x o) (o_weight o)) (s_stop G) (s_zero G) f = Ok (b, made)).
  { intros o H. assert (Q := regression_choice _ _ _ H). unfold robust_regression in H. destruct (r_filtered r) as [f|]; [|discriminate].
    destruct (calibrate _ _ _ _ _ _ _ f) as [[b0 made]| |] eqn:E; try discriminate. exists f, made. split; [reflexivity|]. cbv zeta.
    destruct Q as (Q1 & Q2 & _). rewrite Q1, Q2. destruct (s_stop_end G); inversion H; subst. exact E. }
  unfold robust_fit. destruct (w_stop0 (s_world G)); [discriminate|].
  assert (BW : forall o, (if o_auto_bw o then match robust_bw_stage (s_world G) o with
        | Go o' => if w_stop2 (s_world G) then RReturned (Zeros (w_n (s_world G)) (length (o_x o'))) (mkRobust (set_terminated true o') (r_filtered r)) else robust_regression G (r_filtered r) o'
        | Failed o' => RThrew (mkRobust o' (r_filtered r)) | Undef => @RUndefined C B end
      else robust_regression G (r_filtered r) o) = RReturned (Coefficients b) r' -> exists f made, r_filtered r = Some f /\ let o := r_base r' in
      calibrate B (w_n (s_world G)) (s_fit G (o_x o) (o_weight o)) (s_resid G (o_x o)) (s_stud G (o_x o) (o_weight o)) (s_stop G) (s_zero G) f = Ok (b, made)).
  { intros o. destruct (o_auto_bw o); [|apply REG]. destruct (robust_bw_stage _ o); try discriminate. destruct (w_stop2 _); [discriminate|apply REG]. }
  destruct (o_auto_vars (r_base r)); [|apply BW]. destruct (select_stage _ _ _); try discriminate. destruct (w_stop1 _); [discriminate|apply BW].
Qed.

(** Histories without automatic selection. *)
Definition settled (o o' : object C) : Prop := exists t, o' = set_terminated t o.
Lemma settled_refl o : settled o o. Proof. exists (o_terminated o). destruct o; reflexivity. Qed.
Lemma settled_step srt c o r r' : o_auto_vars o = false -> o_auto_bw o = false -> settled o (r_base r) -> after (step srt c r) = Some r' ->
  settled o (r_base r') /\ r_filtered r' = match (c : call C B) with SetFiltered b => Some b | _ => r_filtered r end.
Proof.
  intros AV AB [t T]. destruct c as [G|P|b]; cbn [step].
  - unfold robust_fit. assert (o_auto_vars (r_base r) = false) by (rewrite T; destruct o; exact AV). assert (o_auto_bw (r_base r) = false) by (rewrite T; destruct o; exact AB).
    rewrite H, H0. destruct (w_stop0 _).
    + intros E; inversion E; subst. cbn. split; auto. exists true. rewrite T. destruct o; reflexivity.
    + unfold robust_regression. destruct (r_filtered r) as [f|]; [|discriminate]. destruct (calibrate _ _ _ _ _ _ _ f) as [[b0 made]| |]; try discriminate.
      * destruct (s_stop_end G); intros E; inversion E; subst; cbn; (split; [|reflexivity]); eexists; rewrite T; destruct o; reflexivity.
      * intros E; inversion E; subst. cbn. split; auto. exists t. exact T.
  - unfold robust_predict. destruct (p_stop0 P).
    + intros E; inversion E; subst. cbn. split; auto. exists true. rewrite T. destruct o; reflexivity.
    + destruct (p_fit P _ _) as [[b0 s]| |]; try discriminate.
      * destruct (p_stop1 P); intros E; inversion E; subst; cbn; (split; [|reflexivity]); eexists; rewrite T; destruct o; reflexivity.
      * intros E; inversion E; subst. split; auto. exists t; exact T.
  - intros E; inversion E; subst. cbn. split; auto. exists t; exact T.
Qed.
Lemma settled_run srt cs : forall o r r', o_auto_vars o = false -> o_auto_bw o = false -> settled o (r_base r) -> run (B := B) srt cs r = Some r' ->
  settled o (r_base r') /\ r_filtered r' = fold_left (fun f (c : call C B) => match c with SetFiltered b => Some b | _ => f end) cs (r_filtered r).
Proof.
  induction cs as [|c cs IH]; intros o r r' AV AB T; cbn [run fold_left].
  - intros E; inversion E; subst. auto.
  - destruct (after (step srt c r)) as [r1|] eqn:E; [|discriminate]. destruct (settled_step _ _ _ AV AB T E) as [T1 F1].
    intros R. rewrite <- F1. apply IH; auto.
Qed.
Lemma same_answer G srt t o f : o_auto_vars o = false -> o_auto_bw o = false ->
  answer (robust_fit G srt (mkRobust (set_terminated t o) f)) = answer (robust_fit G srt (mkRobust o f)).
Proof.
  intros AV AB. unfold robust_fit. cbn [r_base r_filtered]. replace (o_auto_vars (set_terminated t o)) with false by (destruct o; auto). rewrite AV.
  replace (o_auto_bw (set_terminated t o)) with false by (destruct o; auto). rewrite AB.
  destruct (w_stop0 _); [destruct o; reflexivity|]. unfold robust_regression. destruct f; [|reflexivity].
  replace (o_x (set_terminated t o)) with (o_x o) by (destruct o; reflexivity). replace (o_weight (set_terminated t o)) with (o_weight o) by (destruct o; reflexivity).
  destruct (calibrate _ _ _ _ _ _ _ _) as [[b0 made]| |]; auto. destruct (s_stop_end G); reflexivity.
Qed.
Lemma history_main G srt (cs : list (call C B)) o r : o_auto_vars o = false -> o_auto_bw o = false -> run srt cs (fresh o) = Some r ->
  r_filtered r = filtered_last cs /\ answer (robust_fit G srt r) = answer (robust_fit G srt (mkRobust o (filtered_last cs))).
Proof.
  intros AV AB R. destruct (settled_run srt cs (fresh o) AV AB (settled_refl o) R) as [[t T] F].
  cbn [fresh r_filtered] in F. split; [exact F|]. destruct r as [base f]. cbn in T, F. subst. apply same_answer; assumption.
Qed.
Lemma filtered_step srt c r r' : after (step srt c r) = Some r' -> r_filtered r' = match (c : call C B) with SetFiltered b => Some b | _ => r_filtered r end.
Proof.
  destruct c as [G|P|b]; cbn [step].
  - assert (REG : forall o, after (robust_regression G (r_filtered r) o) = Some r' -> r_filtered r' = r_filtered r).
    { intros o. unfold robust_regression. destruct (r_filtered r) as [f|]; [|discriminate]. destruct (calibrate _ _ _ _ _ _ _ f) as [[b0 made]| |]; try discriminate.
      - destruct (s_stop_end G); intros E; inversion E; reflexivity. - intros E; inversion E; reflexivity. }
    unfold robust_fit. destruct (w_stop0 _); [intros E; inversion E; reflexivity|].
    assert (BW : forall o, after (if o_auto_bw o then match robust_bw_stage (s_world G) o with
        | Go o' => if w_stop2 (s_world G) then RReturned (Zeros (w_n (s_world G)) (length (o_x o'))) (mkRobust (set_terminated true o') (r_filtered r)) else robust_regression G (r_filtered r) o'
        | Failed o' => RThrew (mkRobust o' (r_filtered r)) | Undef => @RUndefined C B end
      else robust_regression G (r_filtered r) o) = Some r' -> r_filtered r' = r_filtered r).
    { intros o. destruct (o_auto_bw o); [|apply REG]. destruct (robust_bw_stage _ o); try discriminate; [|intros E; inversion E; reflexivity].
      destruct (w_stop2 _); [intros E; inversion E; reflexivity|apply REG]. }
    destruct (o_auto_vars _); [|apply BW]. destruct (select_stage _ _ _); try discriminate; [|intros E; inversion E; reflexivity].
    destruct (w_stop1 _); [intros E; inversion E; reflexivity|apply BW].
  - unfold robust_predict. destruct (p_stop0 P); [intros E; inversion E; reflexivity|]. destruct (p_fit P _ _) as [[b0 s]| |]; try discriminate.
    + destruct (p_stop1 P); intros E; inversion E; reflexivity.
    + intros E; inversion E; reflexivity.
  - intros E; inversion E; reflexivity.
Qed.
Lemma filtered_run srt cs : forall r r', run (B := B) srt cs r = Some r' ->
  r_filtered r' = fold_left (fun f (c : call C B) => match c with SetFiltered b => Some b | _ => f end) cs (r_filtered r).
Proof.
  induction cs as [|c cs IH]; intros r r'; cbn [run fold_left].
  - intros E; inversion E; auto.
  - destruct (after (step srt c r)) as [r1|] eqn:E; [|discriminate]. intros R. rewrite <- (filtered_step _ _ _ E). apply IH; auto.
Qed.
Lemma unset_main G srt (cs : list (call C B)) o r : run srt cs (fresh o) = Some r -> filtered_last cs = None ->
  (forall b r', robust_fit G srt r <> RReturned (Coefficients b) r') /\
  (o_auto_vars o = false -> o_auto_bw o = false -> w_stop0 (s_world G) = false -> robust_fit G srt r = @RUndefined C B).
Proof.
  intros R N. assert (F := filtered_run _ _ _ R). cbn [fresh r_filtered] in F. unfold filtered_last in N. rewrite N in F. split.
  - intros b r' H. destruct (result_main _ _ _ H) as (f & made & Q & _). congruence.
  - intros AV AB S0. destruct (settled_run srt cs (fresh o) AV AB (settled_refl o) R) as [[t T] _].
    unfold robust_fit. rewrite S0, T. replace (o_auto_vars (set_terminated t o)) with false by (destruct o; auto).
    replace (o_auto_bw (set_terminated t o)) with false by (destruct o; auto). unfold robust_regression. rewrite F. reflexivity.
Qed.

(** The bounds have no effect. *)
Definition on_staged (h : object C -> object C) (s : staged C) : staged C := match s with Go o => Go (h o) | Failed o => Failed (h o) | Undef => Undef end.
Lemma wb_wb l u l' u' o : with_bounds l u (with_bounds l' u' o) = with_bounds l u o. Proof. reflexivity. Qed.
Lemma bounds_bw W o l u : robust_bw_stage (B := B) W (with_bounds l u o) = on_staged (with_bounds l u) (robust_bw_stage W o).
Proof.
  unfold robust_bw_stage. change (without_bounds (with_bounds l u o)) with (without_bounds o). destruct (bw_stage W (without_bounds o)) as [o'|o'|]; reflexivity.
Qed.
Lemma bounds_select W srt o l u : select_stage (B := B) W srt (with_bounds l u o) = on_staged (with_bounds l u) (select_stage W srt o).
Proof.
  destruct o. unfold select_stage, with_bounds. cbn. destruct (vs_optimize _ _ _ _) as [[sel rep]| |]; try reflexivity.
  destruct sel as [|a sel]; [destruct rep; reflexivity|].
  destruct rep; cbn; destruct (cols _ _); try reflexivity; destruct (named_list _ _); reflexivity.
Qed.
Lemma bounds_main G srt o f l u : answer (robust_fit G srt (mkRobust (with_bounds l u o) f)) = answer (robust_fit G srt (mkRobust o f)).
Proof.
  assert (REG : forall o1, answer (robust_regression G f (with_bounds l u o1)) = answer (robust_regression G f o1)).
  { intros o1. unfold robust_regression. destruct f; [|reflexivity].
    change (o_x (with_bounds l u o1)) with (o_x o1). change (o_weight (with_bounds l u o1)) with (o_weight o1).
    destruct (calibrate _ _ _ _ _ _ _ _) as [[b0 made]| |]; auto. destruct (s_stop_end G); reflexivity. }
  unfold robust_fit. cbn [r_base r_filtered]. rewrite bounds_select.
  change (o_auto_vars (with_bounds l u o)) with (o_auto_vars o).
  destruct (w_stop0 _); [reflexivity|].
  assert (BW : forall o1, answer (if o_auto_bw (with_bounds l u o1) then match robust_bw_stage (s_world G) (with_bounds l u o1) with
        | Go o' => if w_stop2 (s_world G) then RReturned (Zeros (w_n (s_world G)) (length (o_x o'))) (mkRobust (set_terminated true o') f) else robust_regression G f o'
        | Failed o' => RThrew (mkRobust o' f) | Undef => @RUndefined C B end
      else robust_regression G f (with_bounds l u o1)) = answer (if o_auto_bw o1 then match robust_bw_stage (s_world G) o1 with
        | Go o' => if w_stop2 (s_world G) then RReturned (Zeros (w_n (s_world G)) (length (o_x o'))) (mkRobust (set_terminated true o') f) else robust_regression G f o'
        | Failed o' => RThrew (mkRobust o' f) | Undef => @RUndefined C B end
      else robust_regression G f o1)).
  { intros o1. rewrite bounds_bw. change (o_auto_bw (with_bounds l u o1)) with (o_auto_bw o1). destruct (o_auto_bw o1); [|apply REG].
    destruct (robust_bw_stage (s_world G) o1); try reflexivity. cbn [on_staged]. destruct (w_stop2 _); [reflexivity|apply REG]. }
  destruct (o_auto_vars o); [|apply BW]. destruct (select_stage (s_world G) srt o); try reflexivity. cbn [on_staged]. destruct (w_stop1 _); [reflexivity|apply BW].
Qed.

(** The bounds are kept. *)
Definition kept_bounds o (q : rfinished C B) : Prop :=
  match q with RReturned _ r | RThrew r => o_lower (r_base r) = o_lower o /\ o_upper (r_base r) = o_upper o | RUndefined => True end.
Lemma regression_bounds G f o0 o : o_lower o = o_lower o0 -> o_upper o = o_upper o0 -> kept_bounds o0 (robust_regression G f o).
Proof.
  intros L U. unfold robust_regression. destruct f as [b|]; [|exact I].
  destruct (calibrate _ _ _ _ _ _ _ _) as [[v made]| |]; cbn; auto. destruct (s_stop_end G); cbn; auto.
Qed.
Lemma kept_main G srt r : kept_bounds (r_base r) (robust_fit G srt r).
Proof.
  assert (BW : forall o1, o_lower o1 = o_lower (r_base r) -> o_upper o1 = o_upper (r_base r) ->
    kept_bounds (r_base r) (if o_auto_bw o1 then match robust_bw_stage (s_world G) o1 with
      | Go o' => if w_stop2 (s_world G) then RReturned (Zeros (w_n (s_world G)) (length (o_x o'))) (mkRobust (set_terminated true o') (r_filtered r))
                 else robust_regression G (r_filtered r) o'
      | Failed o' => RThrew (mkRobust o' (r_filtered r)) | Undef => @RUndefined C B end
      else robust_regression G (r_filtered r) o1)).
  { intros o1 L U. destruct (o_auto_bw o1); [|apply regression_bounds; assumption].
    unfold robust_bw_stage. destruct (bw_stage _ _) as [o'|o'|]; cbn; auto. destruct (w_stop2 _); [cbn; auto|].
    apply regression_bounds; assumption. }
  unfold robust_fit. destruct (w_stop0 _); [cbn; auto|]. destruct (o_auto_vars _); [|apply BW; reflexivity].
  assert (SEL : match select_stage (s_world G) srt (r_base r) with
    | Go o' | Failed o' => o_lower o' = o_lower (r_base r) /\ o_upper o' = o_upper (r_base r) | Undef => True end).
  { unfold select_stage. destruct (vs_optimize _ _ _ _) as [[sel rep]| |]; auto.
    destruct sel; [destruct rep; cbn; auto|]. destruct (cols _ _) as [x'| |]; [|destruct rep; cbn; auto|exact I].
    destruct (named_list _ _) as [nl| |]; destruct rep; cbn; auto. }
  destruct (select_stage _ _ _) as [o'|o'|]; [|exact SEL|exact I]. destruct SEL as [L U].
  destruct (w_stop1 _); [cbn; auto|]. apply BW; assumption.
Qed.
Lemma bounds_kept G srt r r' : (exists v, robust_fit G srt r = RReturned v r') \/ robust_fit G srt r = RThrew r' ->
  o_lower (r_base r') = o_lower (r_base r) /\ o_upper (r_base r') = o_upper (r_base r).
Proof. pose proof (kept_main G srt r) as K. intros [[v E]|E]; rewrite E in K; exact K. Qed.
End P.
