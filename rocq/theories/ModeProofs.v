From Coq Require Import Bool List NArith Lia.
From Verif Require Import Outcome ModeModel ModeSpec.
Import ListNotations.

Lemma exec_all_app : forall a c l m s,
  exec_all a c (l ++ m) s = match exec_all a c l s with Ok s' => exec_all a c m s' | Throw => Throw | UB => UB end.
Proof.
  intros a c l; induction l as [|x t IH]; intros m s; [reflexivity|].
  simpl. destruct (exec a c x s); [apply IH|reflexivity|reflexivity].
Qed.

Lemma after_snoc : forall a c l x,
  after a c (l ++ [x]) = match after a c l with Ok s => exec a c x s | Throw => Throw | UB => UB end.
Proof.
  intros. unfold after. rewrite exec_all_app. destruct (exec_all a c l (init a)) as [s| |]; [|reflexivity|reflexivity].
  simpl. destruct (exec a c x s); reflexivity.
Qed.

(** ** Acceptance *)
Lemma accepts_meaning : forall a c t,
  accepts a c t = match wanted t with
                  | KOmp => match a with LocalCol => true | _ => omp c end
                  | KCuda => match a with Basic | Robust | Multiscale => cuda c | _ => false end
                  | _ => match t with MPI => false | _ => true end
                  end.
Proof. intros a [o u m] t; destruct a, t, o, u; reflexivity. Qed.

(** ** Reachable states *)
(** What never changes relative to the settings, for GWDR and the ridge. *)
Definition crit_synced (a : alg) (c : config) (s : state) : Prop :=
  match a with
  | Gwdr => p_crit (ptr s) = crit_ptr a c (ty s) (crit s)
  | LocalCol => crit s = CV /\ p_crit (ptr s) = crit_ptr a c (ty s) CV
  | _ => True
  end.
Lemma synced_step : forall a c x s s', crit_synced a c s -> exec a c x s = Ok s' -> crit_synced a c s'.
Proof.
  intros a c x s s' H E. destruct a; try exact I.
  - destruct x; cbn in E; try (assert (s' = s) as -> by congruence; exact H).
    + unfold set_type in E. destruct (accepts Gwdr c t); injection E as <-; reflexivity.
    + injection E as <-; reflexivity.
  - destruct x; cbn in E; try (assert (s' = s) as -> by congruence; exact H).
    + unfold set_type in E. destruct H as [H1 H2].
      destruct (accepts LocalCol c t); injection E as <-; unfold set_crit; cbn; rewrite H1; cbn; auto.
    + unfold set_crit in E. destruct k; cbn in E.
      * assert (s' = s) as -> by congruence; exact H.
      * injection E as <-; cbn; auto.
Qed.
Lemma synced_after : forall a c l s, after a c l = Ok s -> crit_synced a c s.
Proof.
  intros a c l. induction l as [|x l IH] using rev_ind; intros s E.
  - cbn in E. assert (s = init a) as -> by congruence. destruct a; cbn; auto.
  - rewrite after_snoc in E. destruct (after a c l) as [s0| |]; try discriminate.
    exact (synced_step _ _ _ _ _ (IH _ eq_refl) E).
Qed.

Lemma rejected_same : forall a c l t s, after a c l = Ok s -> accepts a c t = false ->
  set_type a c t s = Ok s.
Proof.
  intros a c l t s E R. pose proof (synced_after _ _ _ _ E) as Sy.
  unfold set_type. rewrite R. destruct a; try reflexivity; f_equal.
  - change (p_crit (ptr s) = crit_ptr Gwdr c (ty s) (crit s)) in Sy. unfold set_crit; cbn [has_crit]. unfold with_crit. rewrite <- Sy.
    destruct s as [ty0 cr fa mo p]; destruct p; reflexivity.
  - destruct Sy as [S1 S2]. unfold set_crit; rewrite S1; cbn [has_crit]. unfold with_crit. rewrite <- S2.
    destruct s as [ty0 cr fa mo p]; destruct p; cbn in *; now subst.
Qed.

(** ** Consistency *)
Definition good (a : alg) (c : config) (u : bool) (s : state) : Prop :=
  consistent a u s /\ offered a (ty s) = true /\ built c (ty s) = true.

Lemma good_init : forall a c, good a c false (init a).
Proof.
  intros a c. split; [|split; destruct a; reflexivity].
  destruct a; cbn; try (repeat split; congruence).
Qed.

Definition sets_crit (a : alg) (c : config) (x : call) : bool :=
  match x with SetType t => accepts a c t | SetCrit _ => true | _ => false end.

Lemma core_basic : forall c t, offered Basic t = true -> built c t = true -> basic_core c t = wanted t.
Proof. intros [o u m] t O B. destruct o, u, m, t; cbn in *; try discriminate; auto. Qed.
Lemma outer_basic : forall c t, offered Basic t = true -> built c t = true -> outer_kind c t = outer_wanted t.
Proof. intros [o u m] t O B. destruct o, u, m, t; cbn in *; try discriminate; auto. Qed.
Lemma no_mpi : forall c t, mpi c = false -> offered Basic t = true -> built c t = true ->
  distributed_mode t = false.
Proof.
  intros [o u m] t M O B. destruct o, u, m, t; cbn in *; try discriminate; reflexivity.
Qed.
Lemma core_simple : forall a c t, mpi_alg a = false -> cuda_alg a = false ->
  offered a t = true -> built c t = true ->
  simple_core c t = wanted t.
Proof.
  intros a [o u m] t Ma Mc O B. destruct a; try discriminate Ma; try discriminate Mc;
  destruct o, u, m, t; cbn in *; try discriminate; reflexivity.
Qed.
Lemma core_multi : forall c t, offered Multiscale t = true -> built c t = true ->
  multi_core c t = wanted t /\ outer_kind c t = KBase /\ outer_wanted t = KBase.
Proof. intros [o u m] t O B. destruct o, u, m, t; cbn in *; try discriminate; auto. Qed.
Lemma map_simple : forall c t, offered Generalized t = true -> built c t = true ->
  map_kind c t = Some (wanted t).
Proof. intros [o u m] t O B. destruct o, u, m, t; cbn in *; try discriminate; auto. Qed.

Lemma good_step : forall a c x u s s', crit_synced a c s -> good a c u s ->
  (forall t, x = SetType t -> offered a t = true /\ built c t = true) ->
  exec a c x s = Ok s' -> good a c (u || sets_crit a c x) s'.
Proof.
  intros a c x u s s' Sy (Co & Of & Bu) Hx E.
  destruct x as [t|k|f|m].
  - destruct (Hx t eq_refl) as [Ot Bt]. cbn [exec] in E. cbn [sets_crit].
    destruct (accepts a c t) eqn:Ac.
    2:{ rewrite orb_false_r. assert (s' = s) as ->; [|repeat split; auto].
        unfold set_type in E. rewrite Ac in E. destruct a; try congruence.
        - change (p_crit (ptr s) = crit_ptr Gwdr c (ty s) (crit s)) in Sy. unfold set_crit in E; cbn [has_crit] in E. unfold with_crit in E. rewrite <- Sy in E.
          destruct s as [ty0 cr fa mo p]; destruct p; cbn in *; congruence.
        - destruct Sy as [S1 S2]. unfold set_crit in E; rewrite S1 in E; cbn [has_crit] in E.
          unfold with_crit in E. rewrite <- S2 in E.
          destruct s as [ty0 cr fa mo p]; destruct p; cbn in *; subst; congruence. }
    rewrite orb_true_r. unfold set_type in E. rewrite Ac in E.
    assert (Cs : mpi_alg a = false -> cuda_alg a = false -> simple_core c t = wanted t)
      by (intros; now apply (core_simple a)).
    destruct a; try (injection E as <-);
      try (split; [|split; [exact Ot|exact Bt]]; cbn;
           rewrite ?(Cs eq_refl eq_refl); now auto).
    + split; [|split; [exact Ot|exact Bt]]. destruct Co as (_ & _ & _ & _ & C5 & C6 & _).
      cbn. rewrite (core_basic c t Ot Bt), (outer_basic c t Ot Bt).
      destruct (mpi c) eqn:M; [repeat split; auto|].
      assert (Ot' := no_mpi c (ty s) M Of Bu). assert (Ot'' := no_mpi c t M Ot Bt).
      unfold outer_wanted in *. rewrite Ot' in *. rewrite Ot''. cbn in C5, C6. repeat split; auto.
    + destruct (fam s) as [f|] eqn:Ef; [|discriminate]. injection E as <-.
      split; [|split; [exact Ot|exact Bt]]. cbn. rewrite (map_simple c t Ot Bt). cbn.
      split; [|auto]. intros f' Ef'. assert (f' = f) as -> by congruence. auto.
    + split; [|split; [cbn; destruct Sy as [S1 _]; rewrite S1; exact Ot|cbn; destruct Sy as [S1 _]; rewrite S1; exact Bt]].
      destruct Sy as [S1 _]. unfold set_crit; cbn; rewrite S1; cbn. rewrite (core_simple LocalCol c t eq_refl eq_refl Ot Bt). auto.
    + destruct (core_multi c t Ot Bt) as (E1 & E2 & E3).
      split; [|split; [exact Ot|exact Bt]]. cbn. rewrite E1, E2, E3.
      destruct Co as (_ & _ & _ & C4). destruct (core_multi c (ty s) Of Bu) as (_ & _ & F3).
      rewrite F3 in C4. destruct (mpi c); auto.
  - cbn in E. assert (s' = set_crit a c k s) as -> by congruence. cbn [sets_crit]. rewrite orb_true_r.
    unfold set_crit. destruct (has_crit a k) eqn:Hc.
    2:{ split; [|auto]. destruct a; try discriminate Hc; exact Co. }
    split; [|split; [exact Of|exact Bu]]. destruct a; try discriminate Hc; cbn in Co |- *.
    + destruct Co as (C1 & C2 & C3 & C4 & C5 & C6 & _). rewrite (outer_basic c _ Of Bu). auto 10.
    + tauto.
    + rewrite (core_simple Gwdr c _ eq_refl eq_refl Of Bu). tauto.
    + destruct Co as [C1 _]. rewrite (map_simple c _ Of Bu). auto.
    + rewrite (core_simple LocalCol c _ eq_refl eq_refl Of Bu). tauto.
  - cbn [sets_crit]. rewrite orb_false_r.
    destruct a; cbn in E; try (assert (s' = s) as -> by congruence; exact (conj Co (conj Of Bu))).
    injection E as <-. split; [|split; [exact Of|exact Bu]]. cbn. rewrite (map_simple c _ Of Bu). cbn.
    split; [|apply Co]. intros f' Ef'. assert (f' = f) as -> by congruence. auto.
  - cbn [sets_crit]. rewrite orb_false_r.
    destruct a; cbn in E; try (assert (s' = s) as -> by congruence; exact (conj Co (conj Of Bu))).
    injection E as <-. split; [|split; [exact Of|exact Bu]]. cbn.
    now rewrite (core_simple Gwss c _ eq_refl eq_refl Of Bu).
Qed.

Lemma good_after : forall a c l s, sensible a c l -> after a c l = Ok s ->
  exists u, good a c u s /\ (criterion_set a c l -> u = true).
Proof.
  intros a c l. induction l as [|x l IH] using rev_ind; intros s Se E.
  - cbn in E. assert (s = init a) as -> by congruence. exists false. split; [apply good_init|].
    intros (x & [] & _).
  - rewrite after_snoc in E. destruct (after a c l) as [s0| |] eqn:E0; try discriminate.
    destruct (IH s0) as (u & G & U); auto.
    { intros t It; apply Se, in_or_app; now left. }
    exists (u || sets_crit a c x). split.
    + eapply good_step; eauto using synced_after. intros t ->. apply Se, in_or_app; right; simpl; auto.
    + intros (y & Iy & Hy). apply in_app_or in Iy as [Iy|[<-|[]]].
      * rewrite U; [reflexivity|]. exists y; auto.
      * apply orb_true_iff; right. destruct x; cbn in *; tauto.
Qed.
Lemma consistent_after : forall a c l s, sensible a c l -> after a c l = Ok s ->
  consistent a false s /\ (criterion_set a c l -> consistent a true s).
Proof.
  intros a c l s Se E. destruct (good_after a c l s Se E) as (u & (Co & _) & U). split.
  - destruct a; cbn in *; intuition congruence.
  - intros C. rewrite (U C) in Co. exact Co.
Qed.
Lemma type_after : forall a c l t s, after a c (l ++ [SetType t]) = Ok s ->
  exists s0, after a c l = Ok s0 /\ ty s = if accepts a c t then t else ty s0.
Proof.
  intros a c l t s E. rewrite after_snoc in E. destruct (after a c l) as [s0| |] eqn:E0; try discriminate.
  exists s0. split; [reflexivity|]. cbn in E. unfold set_type in E.
  destruct (accepts a c t) eqn:Ac.
  - destruct a; try (injection E as <-; reflexivity).
    + destruct (fam s0); [|discriminate]. injection E as <-. reflexivity.
    + injection E as <-. unfold set_crit. destruct (has_crit _ _); reflexivity.
  - destruct a; try (assert (s = s0) as -> by congruence; reflexivity);
      injection E as <-; unfold set_crit; destruct (has_crit _ _); reflexivity.
Qed.
(** Only GWRGeneralized without a family is undefined. *)
Lemma defined_after : forall a c l, a <> Generalized -> exists s, after a c l = Ok s.
Proof.
  intros a c l Na. induction l as [|x l IH] using rev_ind; [eexists; reflexivity|].
  destruct IH as (s & E). rewrite after_snoc, E.
  destruct x; cbn [exec]; try (eexists; reflexivity).
  - unfold set_type. destruct a; try congruence; try (eexists; reflexivity);
      destruct (accepts _ c t); eexists; reflexivity.
  - destruct a; eexists; reflexivity.
  - destruct a; eexists; reflexivity.
Qed.
Lemma gtwr_serial : forall c calls s, after Gtwr c calls = Ok s ->
  exists v, p_crit (ptr s) = Some (KSerial, v).
Proof.
  intros c calls. induction calls as [|x l IH] using rev_ind; intros s E.
  - injection E as <-. eexists; reflexivity.
  - rewrite after_snoc in E. destruct (after Gtwr c l) as [s0| |]; try discriminate.
    destruct x; cbn [exec] in E.
    + unfold set_type in E. destruct (accepts Gtwr c t).
      * injection E as <-. eexists; reflexivity.
      * assert (s = s0) as -> by congruence. now apply IH.
    + injection E as <-. eexists; reflexivity.
    + assert (s = s0) as -> by congruence. now apply IH.
    + assert (s = s0) as -> by congruence. now apply IH.
Qed.
Lemma robust_base : forall c calls s, after Robust c calls = Ok s -> p_base (ptr s) = Some (KSerial, Plain).
Proof.
  intros c calls. induction calls as [|x l IH] using rev_ind; intros s E.
  - injection E as <-. reflexivity.
  - rewrite after_snoc in E. destruct (after Robust c l) as [s0| |]; try discriminate.
    destruct x; cbn [exec] in E; unfold set_crit in E; cbn [has_crit] in E; try (assert (s = s0) as -> by congruence; now apply IH).
    unfold set_type in E. destruct (accepts Robust c t).
    + injection E as <-. cbn. now apply IH.
    + assert (s = s0) as -> by congruence. now apply IH.
Qed.

Lemma variant_after : forall a c calls s0, after a c calls = Ok s0 ->
  (forall t s, after a c (calls ++ [SetType t]) = Ok s ->
     crit s = crit s0 /\ fam s = fam s0 /\ mode s = mode s0) /\
  (In a [Basic; Gtwr; Gwdr; Generalized] -> forall k s, after a c (calls ++ [SetCrit k]) = Ok s ->
     crit s = k /\ ty s = ty s0 /\ fam s = fam s0) /\
  (a = Generalized -> forall f s, after a c (calls ++ [SetFamily f]) = Ok s ->
     fam s = Some f /\ ty s = ty s0 /\ crit s = crit s0) /\
  (a = Gwss -> forall m s, after a c (calls ++ [SetMode m]) = Ok s -> mode s = m /\ ty s = ty s0).
Proof.
  intros a c calls s0 E0.
  split; [intros t s E|split; [intros I k s E|split; [intros -> f s E|intros -> m s E]]];
    rewrite after_snoc, E0 in E; cbn [exec] in E.
  - unfold set_type in E. destruct (accepts a c t), a; try (injection E as <-; unfold set_crit; cbn;
      try destruct (match _ with AIC => _ | CV => _ end); cbn; now auto).
    destruct (fam s0) eqn:F; [|discriminate]. injection E as <-. cbn. auto.
  - injection E as <-. simpl in I. repeat (destruct I as [<-|I]; [cbn; auto|]). destruct I.
  - injection E as <-. cbn. auto.
  - injection E as <-. cbn. auto.
Qed.
Lemma gtwr_serial_variant : forall c calls s, after Gtwr c calls = Ok s ->
  exists v, p_crit (ptr s) = Some (KSerial, v) /\ (criterion_set Gtwr c calls -> v = Crit (crit s)).
Proof.
  intros c calls. induction calls as [|x l IH] using rev_ind; intros s E.
  - injection E as <-. eexists; split; [reflexivity|]. intros (x & [] & _).
  - rewrite after_snoc in E. destruct (after Gtwr c l) as [s0| |]; try discriminate.
    destruct x; cbn [exec] in E.
    + unfold set_type in E. destruct (accepts Gtwr c t) eqn:A.
      * injection E as <-. eexists; split; reflexivity.
      * assert (s = s0) as -> by congruence. destruct (IH _ eq_refl) as (v & P & Q). exists v. split; auto.
        intros (x & I & D). apply in_app_iff in I. destruct I as [I|[<-|[]]]; [|congruence]. apply Q. exists x; auto.
    + injection E as <-. eexists; split; reflexivity.
    + assert (s = s0) as -> by congruence. destruct (IH _ eq_refl) as (v & P & Q). exists v. split; auto.
      intros (x & I & D). apply in_app_iff in I. destruct I as [I|[<-|[]]]; [|tauto]. apply Q. exists x; auto.
    + assert (s = s0) as -> by congruence. destruct (IH _ eq_refl) as (v & P & Q). exists v. split; auto.
      intros (x & I & D). apply in_app_iff in I. destruct I as [I|[<-|[]]]; [|tauto]. apply Q. exists x; auto.
Qed.
