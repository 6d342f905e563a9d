(** Proofs about SpatialWeight histories. *)
From Coq Require Import Bool List Arith Lia.
From Verif Require Import SwModel SwSpec.
Import ListNotations.

Lemma upd_eq {B} (f : nat -> B) i b : upd f i b i = b.
Proof. unfold upd. rewrite Nat.eqb_refl. auto. Qed.
Lemma upd_neq {B} (f : nat -> B) i j b : j <> i -> upd f i b j = f j.
Proof. unfold upd. intros. destruct (Nat.eqb_spec j i); congruence. Qed.

Lemma slot_set k s p : slot k (set_slot k s p) = p.
Proof. destruct k; auto. Qed.
Lemma slot_set_neq k k' s p : k <> k' -> slot k (set_slot k' s p) = slot k s.
Proof. destruct k, k'; auto; congruence. Qed.
Lemma set_set k s p q : set_slot k (set_slot k s p) q = set_slot k s q.
Proof. destruct k; auto. Qed.

Section Proofs.
Variable A : Type.
Variable cln : A -> option A.
Notation state := (state A). Notation step := (step A cln). Notation run := (run A cln).

Definition Inv (st : state) : Prop :=
  (forall p, nexta st <= p -> heap st p = None) /\
  (forall o, nexto st <= o -> objs st o = None) /\
  (forall p, caller st p = true -> live st p) /\
  well_owned st.

Definition seq_ (a b : state) : Prop :=
  (forall p, heap a p = heap b p) /\ nexta a = nexta b /\ (forall o, objs a o = objs b o) /\
  nexto a = nexto b /\ (forall p, caller a p = caller b p).

Lemma owns_ext a b o k p : seq_ a b -> owns a o k p -> owns b o k p.
Proof. intros (_ & _ & H & _ & _) (s & S1 & S2). exists s. rewrite <- H. auto. Qed.
Lemma seq_sym a b : seq_ a b -> seq_ b a.
Proof. intros (H1 & H2 & H3 & H4 & H5); repeat split; intros; symmetry; auto. Qed.
Lemma Inv_ext a b : seq_ a b -> Inv a -> Inv b.
Proof.
  intros E (F1 & F2 & F3 & W1 & W2 & W3). pose proof (seq_sym _ _ E) as E'.
  destruct E as (H1 & H2 & H3 & H4 & H5). unfold Inv, live in *.
  split; [intros p; rewrite <- H1, <- H2; auto|].
  split; [intros o; rewrite <- H3, <- H4; auto|].
  split; [intros p; rewrite <- H1, <- H5; auto|].
  unfold well_owned, live in *.
  split; [|split].
  - intros o k p O. rewrite <- H1, <- H5. apply (W1 o k). eapply owns_ext; eauto.
  - intros o1 k1 o2 k2 p O1 O2. eapply W2; eapply owns_ext; eauto.
  - intros p L. rewrite <- H1 in L. rewrite <- H5. destruct (W3 p L) as [C|(o & k & O)]; auto.
    right. exists o, k. eapply owns_ext; [|eauto]. apply seq_sym. auto.
Qed.

Lemma init_Inv : Inv init.
Proof.
  split; [reflexivity|]. split; [reflexivity|]. split; [discriminate|].
  split; [|split].
  - intros o k p (s & H & _). discriminate.
  - intros o1 k1 o2 k2 p (s & H & _). discriminate.
  - intros p H. exfalso. apply H. reflexivity.
Qed.

(** ** Abstract moves *)
Definition freed (st : state) (p : option nat) : state :=
  match p with Some a => set_heap _ st (upd (heap st) a None) | None => st end.
Definition kill (st : state) (o : nat) (k : bool) (s : sw) : state :=
  set_obj _ (freed st (slot k s)) o (Some (set_slot k s None)).
Definition fill (st : state) (o : nat) (k : bool) (s : sw) (c : A) : state :=
  mkState A (upd (heap st) (nexta st) (Some c)) (S (nexta st))
    (upd (objs st) o (Some (set_slot k s (Some (nexta st))))) (nexto st) (caller st).

Lemma owns_dec_obj (f : nat -> option sw) o (s : option sw) q k p (st' : state) :
  objs st' = upd f o s -> owns st' q k p ->
  (q = o /\ exists s', s = Some s' /\ slot k s' = Some p) \/ (q <> o /\ exists s', f q = Some s' /\ slot k s' = Some p).
Proof.
  intros E (s' & H1 & H2). rewrite E in H1. destruct (Nat.eq_dec q o) as [->|N].
  - rewrite upd_eq in H1. left. eauto.
  - rewrite upd_neq in H1 by auto. right. eauto.
Qed.

Lemma kill_owns st o k s q k' p : objs st o = Some s -> owns (kill st o k s) q k' p ->
  owns st q k' p /\ (q, k') <> (o, k).
Proof.
  intros So O. assert (E : objs (kill st o k s) = upd (objs st) o (Some (set_slot k s None))).
  { unfold kill, freed. destruct (slot k s); reflexivity. }
  destruct (owns_dec_obj _ _ _ _ _ _ _ E O) as [(-> & s' & Es & Sl)|(N & s' & Es & Sl)].
  - inversion Es; subst. destruct (bool_dec k' k) as [->|Nk].
    + rewrite slot_set in Sl. discriminate.
    + rewrite slot_set_neq in Sl by auto. split; [exists s; auto|congruence].
  - split; [exists s'; auto|congruence].
Qed.

Lemma kill_Inv st o k s : Inv st -> objs st o = Some s -> Inv (kill st o k s).
Proof.
  intros (F1 & F2 & F3 & W1 & W2 & W3) So.
  assert (HN : forall p, slot k s = Some p -> owns st o k p) by (intros p Sl; exists s; auto).
  assert (E1 : nexta (kill st o k s) = nexta st) by (unfold kill, freed; destruct (slot k s); auto).
  assert (E2 : nexto (kill st o k s) = nexto st) by (unfold kill, freed; destruct (slot k s); auto).
  assert (E3 : caller (kill st o k s) = caller st) by (unfold kill, freed; destruct (slot k s); auto).
  assert (E4 : objs (kill st o k s) = upd (objs st) o (Some (set_slot k s None))).
  { unfold kill, freed. destruct (slot k s); reflexivity. }
  assert (Hh : forall p, slot k s <> Some p -> heap (kill st o k s) p = heap st p).
  { intros p N. unfold kill, freed. destruct (slot k s) as [a|]; auto. simpl. apply upd_neq. congruence. }
  assert (Hh2 : forall p, slot k s = Some p -> heap (kill st o k s) p = None).
  { intros p N. unfold kill, freed. rewrite N. simpl. apply upd_eq. }
  assert (Hd : forall p, slot k s = Some p \/ slot k s <> Some p).
  { intros p. destruct (slot k s) as [a|]; [destruct (Nat.eq_dec a p); [left|right]; congruence|right; discriminate]. }
  split; [|split; [|split]].
  - intros p. rewrite E1. intros L. destruct (Hd p) as [S1|S1]; [apply Hh2; auto|rewrite Hh; auto].
  - intros q. rewrite E2, E4. intros L. destruct (Nat.eq_dec q o) as [->|N].
    + rewrite F2 in So by auto. discriminate.
    + rewrite upd_neq; auto.
  - intros p. rewrite E3. unfold live. intros C. rewrite Hh; [apply F3; auto|].
    intros S1. destruct (W1 _ _ _ (HN _ S1)). congruence.
  - split; [|split].
    + intros q k' p O. apply kill_owns in O as (O & N); auto. destruct (W1 _ _ _ O) as (L & C).
      unfold live. rewrite E3, Hh; auto. intros S1. apply N. destruct (W2 _ _ _ _ _ O (HN _ S1)). congruence.
    + intros o1 k1 o2 k2 p O1 O2. apply kill_owns in O1 as (O1 & _); auto. apply kill_owns in O2 as (O2 & _); auto. eauto.
    + intros p L. rewrite E3. unfold live in L. destruct (Hd p) as [S1|S1].
      * rewrite Hh2 in L by auto. congruence.
      * rewrite Hh in L by auto. destruct (W3 p L) as [C|(q & k' & s' & O1 & O2)]; auto.
        right. exists q, k'. unfold owns. rewrite E4. destruct (Nat.eq_dec q o) as [->|N].
        -- rewrite upd_eq. exists (set_slot k s None). split; auto.
           assert (s' = s) by congruence. subst. rewrite slot_set_neq; auto. intros ->. auto.
        -- rewrite upd_neq by auto. eauto.
Qed.

Lemma fill_owns st o k s c q k' p : objs st o = Some s -> owns (fill st o k s c) q k' p ->
  ((q, k') = (o, k) /\ p = nexta st) \/ ((q, k') <> (o, k) /\ owns st q k' p).
Proof.
  intros So O.
  destruct (owns_dec_obj (objs st) o _ _ _ _ (fill st o k s c) eq_refl O) as [(-> & s' & Es & Sl)|(N & s' & Es & Sl)].
  - inversion Es; subst. destruct (bool_dec k' k) as [->|Nk].
    + rewrite slot_set in Sl. inversion Sl. auto.
    + rewrite slot_set_neq in Sl by auto. right. split; [congruence|exists s; auto].
  - right. split; [congruence|exists s'; auto].
Qed.

Lemma fill_Inv st o k s c : Inv st -> objs st o = Some s -> slot k s = None -> Inv (fill st o k s c).
Proof.
  intros (F1 & F2 & F3 & W1 & W2 & W3) So Sl.
  assert (Fr : forall p, live st p -> p <> nexta st).
  { intros p L E. apply L. apply F1. lia. }
  assert (Hh : forall p, p <> nexta st -> heap (fill st o k s c) p = heap st p).
  { intros p N. simpl. apply upd_neq; auto. }
  split; [|split; [|split]].
  - intros p L. simpl in *. rewrite upd_neq by lia. apply F1. lia.
  - intros q L. simpl in *. destruct (Nat.eq_dec q o) as [->|N].
    + rewrite F2 in So by auto. discriminate.
    + rewrite upd_neq; auto.
  - intros p C. unfold live. rewrite Hh; [apply F3; auto|]. apply Fr, F3; auto.
  - split; [|split].
    + intros q k' p O. apply fill_owns in O as [(E & ->)|(N & O)]; auto.
      * split; [unfold live; simpl; rewrite upd_eq; discriminate|].
        simpl. destruct (caller st (nexta st)) eqn:C; auto. exfalso. apply (Fr (nexta st)); auto.
      * destruct (W1 _ _ _ O) as (L & C). split; auto. unfold live. rewrite Hh; auto.
    + intros o1 k1 o2 k2 p O1 O2.
      apply fill_owns in O1 as [(E1 & ->)|(N1 & O1)]; auto; apply fill_owns in O2 as [(E2 & E2')|(N2 & O2)]; auto.
      * inversion E1; inversion E2; auto.
      * exfalso. apply (Fr (nexta st)); auto. apply (W1 _ _ _ O2).
      * exfalso. subst. apply (Fr (nexta st)); auto. apply (W1 _ _ _ O1).
      * eauto.
    + intros p L. destruct (Nat.eq_dec p (nexta st)) as [->|N].
      * right. exists o, k, (set_slot k s (Some (nexta st))). simpl. rewrite upd_eq, slot_set. auto.
      * unfold live in L. rewrite Hh in L by auto. destruct (W3 p L) as [C|(q & k' & s' & O1 & O2)]; auto.
        right. exists q, k'. unfold owns. simpl. destruct (Nat.eq_dec q o) as [->|No].
        -- rewrite upd_eq. eexists. split; eauto. assert (s' = s) by congruence. subst.
           rewrite slot_set_neq; auto. intros ->. congruence.
        -- rewrite upd_neq by auto. eauto.
Qed.

Lemma new_Inv st : Inv st -> Inv (new_obj _ st (mkSw None None)).
Proof.
  intros (F1 & F2 & F3 & W1 & W2 & W3).
  assert (OW : forall q k p, owns (new_obj A st (mkSw None None)) q k p -> owns st q k p).
  { intros q k p O.
    destruct (owns_dec_obj (objs st) (nexto st) _ _ _ _ (new_obj A st (mkSw None None)) eq_refl O) as [(-> & s' & Es & Sl)|(N & s' & Es & Sl)].
    - inversion Es; subst. destruct k; discriminate.
    - exists s'; auto. }
  split; [auto|]. split; [|split; [auto|split; [|split]]].
  - intros o L. simpl in *. rewrite upd_neq by lia. apply F2. lia.
  - intros o k p O. apply (W1 o k p). auto.
  - intros. eauto.
  - intros p L. destruct (W3 p L) as [C|(q & k' & s' & O1 & O2)]; auto.
    right. exists q, k', s'. split; auto. simpl. rewrite upd_neq; auto. intros ->. rewrite F2 in O1; [discriminate|lia].
Qed.

(** Moving both members of [src] into the empty object [dst]. *)
Definition moved (st : state) (dst src : nat) (s : sw) : state :=
  set_obj _ (set_obj _ st dst (Some s)) src (Some (mkSw None None)).
Lemma moved_owns st dst src s q k p : dst <> src -> objs st dst = Some (mkSw None None) -> objs st src = Some s ->
  owns (moved st dst src s) q k p <->
  (q = dst /\ owns st src k p) \/ (q <> dst /\ q <> src /\ owns st q k p).
Proof.
  intros N D S. unfold moved, owns; simpl. destruct (Nat.eq_dec q src) as [->|N1].
  - rewrite upd_eq. split.
    + intros (s' & E & Sl). inversion E; subst. destruct k; discriminate.
    + intros [(E & _)|(_ & E & _)]; congruence.
  - rewrite upd_neq by auto. destruct (Nat.eq_dec q dst) as [->|N2].
    + rewrite upd_eq. split.
      * intros (s' & E & Sl). inversion E; subst. left. split; auto. eauto.
      * intros [(_ & s' & E & Sl)|(E & _)]; [|congruence]. assert (s' = s) by congruence. subst; eauto.
    + rewrite upd_neq by auto. split; [intros (s' & E & Sl); right; eauto|].
      intros [(E & _)|(_ & _ & H)]; auto. congruence.
Qed.
Lemma moved_Inv st dst src s : Inv st -> dst <> src -> objs st dst = Some (mkSw None None) ->
  objs st src = Some s -> Inv (moved st dst src s).
Proof.
  intros (F1 & F2 & F3 & W1 & W2 & W3) N D S.
  pose proof (fun q k p => moved_owns st dst src s q k p N D S) as OW.
  split; [auto|]. split; [|split; [auto|split; [|split]]].
  - intros o L. simpl in *. pose proof (F2 o L) as Z. rewrite !upd_neq; auto; congruence.
  - intros o k p O. apply OW in O. destruct O as [(_ & O)|(_ & _ & O)]; apply (W1 _ _ _ O).
  - intros o1 k1 o2 k2 p O1 O2. apply OW in O1. apply OW in O2.
    destruct O1 as [(E1 & O1)|(E1 & E1' & O1)], O2 as [(E2 & O2)|(E2 & E2' & O2)];
      destruct (W2 _ _ _ _ _ O1 O2); subst; split; congruence.
  - intros p L. destruct (W3 p L) as [C|(q & k & O)]; auto. right.
    destruct (Nat.eq_dec q src) as [->|N1].
    + exists dst, k. apply OW. auto.
    + destruct (Nat.eq_dec q dst) as [->|N2].
      * destruct O as (s' & E & Sl). assert (s' = mkSw None None) by congruence. subst. destruct k; discriminate.
      * exists q, k. apply OW. auto.
Qed.
(** Removing an empty object. *)
Lemma drop_Inv st o : Inv st -> objs st o = Some (mkSw None None) -> Inv (set_obj _ st o None).
Proof.
  intros (F1 & F2 & F3 & W1 & W2 & W3) D.
  assert (OW : forall q k p, owns (set_obj A st o None) q k p <-> owns st q k p).
  { intros q k p. unfold owns; simpl. destruct (Nat.eq_dec q o) as [->|N].
    - rewrite upd_eq. split; intros (s & E & Sl); [discriminate|].
      assert (s = mkSw None None) by congruence. subst. destruct k; discriminate.
    - rewrite upd_neq by auto. tauto. }
  split; [auto|]. split; [|split; [auto|split; [|split]]].
  - intros q L. simpl in *. destruct (Nat.eq_dec q o) as [->|N]; [apply upd_eq|rewrite upd_neq; auto].
  - intros q k p O. apply OW in O. apply (W1 _ _ _ O).
  - intros o1 k1 o2 k2 p O1 O2. apply OW in O1. apply OW in O2. eauto.
  - intros p L. destruct (W3 p L) as [C|(q & k & O)]; auto. right. exists q, k. apply OW; auto.
Qed.

(** ** Primitive operations of the code *)
Lemma clone_into_ok o k p st s st' : objs st o = Some s ->
  clone_into A cln o k p st = SOk st' <->
  exists a c c', p = Some a /\ heap st a = Some c /\ cln c = Some c' /\ st' = fill st o k s c'.
Proof.
  intros So. unfold clone_into. destruct p as [a|].
  - destruct (heap st a) as [c|] eqn:Ha.
    + rewrite So. destruct (cln c) as [c'|] eqn:Hc.
      * split.
        -- intros H; inversion H; subst. exists a, c, c'. auto.
        -- intros (a' & b & b' & E1 & E2 & E3 & ->). inversion E1; subst. unfold fill. congruence.
      * split; [discriminate|]. intros (a' & b & b' & E1 & E2 & E3 & ->). congruence.
    + split; [discriminate|]. intros (a' & b & b' & E1 & E2 & E3 & ->). congruence.
  - split; [discriminate|]. intros (a' & b & b' & E1 & _). discriminate.
Qed.

Lemma del_ok (st : state) p : (forall a, p = Some a -> live st a) -> del A p st = SOk (freed st p).
Proof.
  intros H. unfold del, freed. destruct p as [a|]; auto. specialize (H a eq_refl). unfold live in H.
  destruct (heap st a); congruence.
Qed.

Lemma rbind_ok r f st' : rbind A r f = SOk st' <-> exists s, r = SOk s /\ f s = SOk st'.
Proof.
  destruct r; simpl; split; try discriminate; try (intros (s' & E & _); discriminate).
  - eauto.
  - intros (s' & E & F). inversion E; subst; auto.
Qed.
Lemma ctor_ok o r st' : ctor A o r = SOk st' <-> r = SOk st'.
Proof. destruct r; simpl; split; congruence. Qed.

Lemma alive_some (st : state) o : alive st o <-> exists s, objs st o = Some s.
Proof. unfold alive. destruct (objs st o); split; eauto; try congruence. intros (s & E). discriminate. Qed.

(** Two clones into a fresh object. *)
Lemma construct_ok st pw pd st' : Inv st -> known A st pd = true ->
  rbind A (clone_into A cln (nexto st) true pw (new_obj A st (mkSw None None))) (clone_into A cln (nexto st) false pd) = SOk st' <->
  exists p q c c' d d', pw = Some p /\ pd = Some q /\ heap st p = Some c /\ cln c = Some c' /\
    heap st q = Some d /\ cln d = Some d' /\
    st' = fill (fill (new_obj A st (mkSw None None)) (nexto st) true (mkSw None None) c')
            (nexto st) false (set_slot true (mkSw None None) (Some (nexta st))) d'.
Proof.
  intros I K. rewrite rbind_ok. split.
  - intros (s1 & E1 & E2).
    rewrite (clone_into_ok _ _ _ _ (mkSw None None)) in E1 by (simpl; apply upd_eq).
    destruct E1 as (p & c & c' & -> & Hc & Cc & ->).
    rewrite (clone_into_ok _ _ _ _ (set_slot true (mkSw None None) (Some (nexta st)))) in E2
      by (simpl; apply upd_eq).
    destruct E2 as (q & d & d' & -> & Hd & Cd & ->).
    simpl in Hc, Hd, K. apply Nat.ltb_lt in K. rewrite upd_neq in Hd by lia.
    exists p, q, c, c', d, d'. auto 10.
  - intros (p & q & c & c' & d & d' & -> & -> & Hc & Cc & Hd & Cd & ->).
    exists (fill (new_obj A st (mkSw None None)) (nexto st) true (mkSw None None) c'). split.
    + rewrite (clone_into_ok _ _ _ _ (mkSw None None)) by (simpl; apply upd_eq). exists p, c, c'. auto.
    + rewrite (clone_into_ok _ _ _ _ (set_slot true (mkSw None None) (Some (nexta st)))) by (simpl; apply upd_eq).
      exists q, d, d'. split; auto. split; auto. simpl. rewrite upd_neq; auto.
      intros ->. destruct I as (F1 & _). rewrite F1 in Hd; [discriminate|lia].
Qed.

Lemma construct_Inv st c d : Inv st ->
  Inv (fill (fill (new_obj A st (mkSw None None)) (nexto st) true (mkSw None None) c)
            (nexto st) false (set_slot true (mkSw None None) (Some (nexta st))) d).
Proof.
  intros I. apply fill_Inv; [|simpl; apply upd_eq|reflexivity].
  apply fill_Inv; [|simpl; apply upd_eq|reflexivity]. apply new_Inv; auto.
Qed.

(** ** Each operation: safe exactly when [fine], and then the invariant is kept. *)
Definition good (st : state) (x : op A) : Prop :=
  (fine cln st x -> exists st', step st x = SOk st') /\
  (forall st', step st x = SOk st' -> fine cln st x /\ Inv st').

Lemma live_known st p : Inv st -> live st p -> p < nexta st.
Proof. intros (F & _) L. destruct (le_lt_dec (nexta st) p); auto. exfalso. apply L, F; auto. Qed.

Lemma good_caller_new st a : Inv st -> good st (CallerNew a).
Proof.
  intros (F1 & F2 & F3 & W1 & W2 & W3). split; [simpl; eauto|]. intros st' E. split; [exact I|].
  simpl in E. inversion E; subst; clear E.
  set (st' := mkState _ _ _ _ _ _).
  assert (Fr : forall p, live st p -> p <> nexta st) by (intros p L Q; apply L, F1; lia).
  assert (Hh : forall p, p <> nexta st -> heap st' p = heap st p) by (intros; simpl; apply upd_neq; auto).
  split; [|split; [auto|split; [|split; [|split]]]].
  - intros p L. simpl in *. rewrite upd_neq by lia. apply F1; lia.
  - intros p C. unfold live. destruct (Nat.eq_dec p (nexta st)) as [->|N].
    + simpl. rewrite upd_eq. discriminate.
    + rewrite Hh by auto. simpl in C. rewrite upd_neq in C by auto. apply F3; auto.
  - intros o k p O. destruct (W1 o k p O) as (L & C). unfold live. rewrite Hh by auto.
    split; auto. simpl. rewrite upd_neq; auto.
  - intros; eauto.
  - intros p L. destruct (Nat.eq_dec p (nexta st)) as [->|N].
    + left. simpl. apply upd_eq.
    + unfold live in L. rewrite Hh in L by auto. destruct (W3 p L) as [C|H]; auto.
      left. simpl. rewrite upd_neq; auto.
Qed.

Lemma good_caller_delete st p : Inv st -> good st (CallerDelete p).
Proof.
  intros (F1 & F2 & F3 & W1 & W2 & W3). split.
  - simpl. intros ->. eauto.
  - intros st' E. simpl in E. destruct (caller st p) eqn:C; [|discriminate]. split; [exact C|].
    inversion E; subst; clear E. set (st' := mkState _ _ _ _ _ _).
    assert (Hh : forall q, q <> p -> heap st' q = heap st q) by (intros; simpl; apply upd_neq; auto).
    assert (Hc : forall q, q <> p -> caller st' q = caller st q) by (intros; simpl; apply upd_neq; auto).
    split; [|split; [auto|split; [|split; [|split]]]].
    + intros q L. simpl in *. destruct (Nat.eq_dec q p) as [->|N]; [apply upd_eq|rewrite upd_neq by auto; auto].
    + intros q Cq. destruct (Nat.eq_dec q p) as [->|N].
      * simpl in Cq. rewrite upd_eq in Cq. discriminate.
      * unfold live. rewrite Hh by auto. rewrite Hc in Cq by auto. apply F3; auto.
    + intros o k q O. destruct (W1 o k q O) as (L & Cq).
      assert (q <> p) by congruence. unfold live. rewrite Hh, Hc; auto.
    + intros; eauto.
    + intros q L. destruct (Nat.eq_dec q p) as [->|N].
      * exfalso. apply L. simpl. apply upd_eq.
      * unfold live in L. rewrite Hh in L by auto. rewrite Hc by auto. apply W3; auto.
Qed.

Lemma good_new_default st : Inv st -> good st NewDefault.
Proof.
  intros I. split; [simpl; eauto|]. intros st' E. split; [exact Logic.I|]. simpl in E. inversion E. apply new_Inv; auto.
Qed.

Lemma good_new_from st pw pd : Inv st -> good st (NewFrom pw pd).
Proof.
  intros I. split.
  - intros (p & q & -> & -> & (c & c' & Hc & Cc) & (d & d' & Hd & Cd)).
    assert (q < nexta st) as Lq by (apply live_known; auto; unfold live; congruence).
    apply Nat.ltb_lt in Lq. cbn [SwModel.step known]. rewrite Lq. eexists. rewrite ctor_ok.
    apply construct_ok; auto.
    exists p, q, c, c', d, d'. auto 10.
  - intros st' E. simpl in E. destruct (known A st pd) eqn:K; [|discriminate].
    rewrite ctor_ok, construct_ok in E by auto.
    destruct E as (p & q & c & c' & d & d' & -> & -> & Hc & Cc & Hd & Cd & ->).
    split; [|apply construct_Inv; auto]. exists p, q. repeat split; auto; [exists c, c'|exists d, d']; auto.
Qed.

Lemma owned_known st s k o : Inv st -> objs st o = Some s -> known A st (slot k s) = true.
Proof.
  intros I So. destruct (slot k s) as [p|] eqn:Sl; auto. simpl. apply Nat.ltb_lt, live_known; auto.
  destruct I as (_ & _ & _ & W1 & _). apply (W1 o k p). exists s; auto.
Qed.

Lemma good_copy_ctor st o : Inv st -> good st (CopyCtor o).
Proof.
  intros I. split.
  - intros (p & q & (s & So & Sp) & (s2 & So2 & Sq) & (c & c' & Hc & Cc) & (d & d' & Hd & Cd)).
    assert (s2 = s) by congruence. subst s2. simpl. rewrite So. simpl in Sp, Sq. rewrite Sp, Sq.
    eexists. rewrite ctor_ok. apply construct_ok; auto.
    + rewrite <- Sq. apply (owned_known st s false o); auto.
    + exists p, q, c, c', d, d'. auto 10.
  - intros st' E. simpl in E. destruct (objs st o) as [s|] eqn:So; [|discriminate].
    rewrite ctor_ok, construct_ok in E; auto; [|apply (owned_known st s false o); auto].
    destruct E as (p & q & c & c' & d & d' & Ep & Eq & Hc & Cc & Hd & Cd & ->).
    split; [|apply construct_Inv; auto]. exists p, q.
    repeat split; [exists s|exists s|exists c, c'|exists d, d']; auto.
Qed.

Lemma good_move_ctor st o : Inv st -> good st (MoveCtor o).
Proof.
  intros I. split.
  - intros Al. apply alive_some in Al as (s & So). simpl. rewrite So. eauto.
  - intros st' E. simpl in E. destruct (objs st o) as [s|] eqn:So; [|discriminate].
    split; [simpl; unfold alive; congruence|]. inversion E; subst.
    assert (No : nexto st <> o). { intros <-. destruct I as (_ & F2 & _). rewrite F2 in So; [discriminate|lia]. }
    apply (Inv_ext (moved (new_obj A st (mkSw None None)) (nexto st) o s)).
    + repeat split; auto; simpl. intros q. unfold upd. destruct (Nat.eqb_spec q o), (Nat.eqb_spec q (nexto st)); subst; auto. congruence.
    + apply moved_Inv; auto; [apply new_Inv; auto|simpl; apply upd_eq|simpl; rewrite upd_neq; auto].
Qed.

(** Deleting both members of an object. *)
Lemma del_both st o s : Inv st -> objs st o = Some s ->
  del A (sw_w s) st = SOk (freed st (sw_w s)) /\
  del A (sw_d s) (freed st (sw_w s)) = SOk (freed (freed st (sw_w s)) (sw_d s)).
Proof.
  intros (F1 & F2 & F3 & W1 & W2 & W3) So.
  assert (OW : forall p, sw_w s = Some p -> owns st o true p) by (intros; exists s; auto).
  assert (OD : forall p, sw_d s = Some p -> owns st o false p) by (intros; exists s; auto).
  split; apply del_ok.
  - intros a E. apply (W1 _ _ _ (OW a E)).
  - intros a E. pose proof (proj1 (W1 _ _ _ (OD a E))) as L. unfold live, freed.
    destruct (sw_w s) as [b|]; auto. simpl. rewrite upd_neq; auto.
    intros ->. destruct (W2 _ _ _ _ _ (OW b eq_refl) (OD b E)). discriminate.
Qed.
Definition both_killed (st : state) (o : nat) (s : sw) : state :=
  kill (kill st o true s) o false (set_slot true s None).
Lemma both_killed_Inv st o s : Inv st -> objs st o = Some s -> Inv (both_killed st o s).
Proof.
  intros I So. apply kill_Inv; [apply kill_Inv; auto|].
  unfold kill. simpl. apply upd_eq.
Qed.
Lemma freed_objs (st : state) p : objs (freed st p) = objs st.
Proof. destruct p; auto. Qed.
Lemma freed_nexta (st : state) p : nexta (freed st p) = nexta st.
Proof. destruct p; auto. Qed.
Lemma freed_nexto (st : state) p : nexto (freed st p) = nexto st.
Proof. destruct p; auto. Qed.
Lemma freed_caller (st : state) p : caller (freed st p) = caller st.
Proof. destruct p; auto. Qed.
Lemma both_killed_seq st o s : 
  seq_ (both_killed st o s)
    (set_obj A (freed (freed st (sw_w s)) (sw_d s)) o (Some (mkSw None None))).
Proof.
  unfold both_killed, kill. destruct s as [w d]; simpl.
  repeat split; destruct w, d; simpl; auto; intros q; unfold upd; destruct (Nat.eqb_spec q o); auto.
Qed.
Lemma freed_heap_other (st : state) p q : p <> Some q -> heap (freed st p) q = heap st q.
Proof. destruct p; simpl; auto. intros. apply upd_neq. congruence. Qed.
Lemma freed_heap_none (st : state) p q : heap st q = None -> heap (freed st p) q = None.
Proof. destruct p; simpl; auto. unfold upd. destruct (Nat.eqb q n); auto. Qed.

Lemma good_destroy st o : Inv st -> good st (Destroy o).
Proof.
  intros I. split.
  - intros Al. apply alive_some in Al as (s & So). simpl. rewrite So.
    destruct (del_both st o s I So) as (-> & E2). simpl. rewrite E2. simpl. eauto.
  - intros st' E. simpl in E. destruct (objs st o) as [s|] eqn:So; [|discriminate].
    split; [simpl; unfold alive; congruence|].
    destruct (del_both st o s I So) as (E1 & E2). rewrite E1 in E. simpl in E. rewrite E2 in E. simpl in E.
    inversion E; subst. apply (Inv_ext (set_obj A (both_killed st o s) o None)).
    + destruct (both_killed_seq st o s) as (H1 & H2 & H3 & H4 & H5).
      repeat split; auto. intros q. simpl. destruct (Nat.eq_dec q o) as [->|N1]; [rewrite !upd_eq; auto|].
      specialize (H3 q). simpl in H3. rewrite !upd_neq in * by auto. auto.
    + apply drop_Inv; [apply both_killed_Inv; auto|]. unfold both_killed, kill. simpl. apply upd_eq.
Qed.

Lemma both_freed_heap st o s q : Inv st -> objs st o = Some s -> (forall k, ~ owns st o k q) ->
  heap (freed (freed st (sw_w s)) (sw_d s)) q = heap st q.
Proof.
  intros I So N. rewrite !freed_heap_other; auto; intros E; [apply (N true)|apply (N false)]; exists s; auto.
Qed.

Lemma good_move_assign st dst src : Inv st -> good st (MoveAssign dst src).
Proof.
  intros I. split.
  - intros (A1 & A2). apply alive_some in A1 as (sd & Sd). apply alive_some in A2 as (ss & Ss).
    simpl. rewrite Sd, Ss. destruct (Nat.eqb dst src); [eauto|].
    destruct (del_both st dst sd I Sd) as (-> & E2). simpl. rewrite E2. simpl. eauto.
  - intros st' E. simpl in E. destruct (objs st dst) as [sd|] eqn:Sd; [|discriminate].
    destruct (objs st src) as [ss|] eqn:Ss; [|discriminate].
    split; [split; unfold alive; congruence|].
    destruct (Nat.eqb_spec dst src) as [->|N]; [inversion E; subst; auto|].
    destruct (del_both st dst sd I Sd) as (E1 & E2). rewrite E1 in E. simpl in E. rewrite E2 in E. simpl in E.
    inversion E; subst. apply (Inv_ext (moved (both_killed st dst sd) dst src ss)).
    + destruct (both_killed_seq st dst sd) as (H1 & H2 & H3 & H4 & H5).
      split; [exact H1|split; [exact H2|split; [|split; [exact H4|exact H5]]]]. intros q. simpl. destruct (Nat.eq_dec q src) as [->|N1]; [rewrite !upd_eq; auto|].
      rewrite !(upd_neq _ src) by auto. destruct (Nat.eq_dec q dst) as [->|N2]; [rewrite !upd_eq; auto|].
      rewrite !(upd_neq _ dst) by auto. specialize (H3 q). simpl in H3. rewrite !upd_neq in H3 by auto. auto.
    + apply moved_Inv; auto; [apply both_killed_Inv; auto|unfold both_killed, kill; simpl; apply upd_eq|].
      unfold both_killed, kill. simpl. rewrite upd_neq by auto. rewrite freed_objs. simpl.
      rewrite upd_neq by auto. rewrite freed_objs. auto.
Qed.

Lemma other_not_owned st o o' k k' q : Inv st -> o <> o' -> owns st o k q -> ~ owns st o' k' q.
Proof. intros (_ & _ & _ & _ & W2 & _) N O O'. destruct (W2 _ _ _ _ _ O O'). congruence. Qed.

Lemma good_copy_assign st dst src : Inv st -> good st (CopyAssign dst src).
Proof.
  intros I. split.
  - intros (A1 & A2 & H). apply alive_some in A1 as (sd & Sd). apply alive_some in A2 as (ss & Ss).
    simpl. rewrite Sd, Ss. destruct (Nat.eqb_spec dst src) as [->|N]; [eauto|].
    destruct H as [H|(p & q & Op & Oq & (c & c' & Hc & Cc) & (d & d' & Hd & Cd))]; [congruence|].
    destruct (del_both st dst sd I Sd) as (-> & E2). simpl. rewrite E2. simpl.
    set (st2 := freed (freed st (sw_w sd)) (sw_d sd)).
    assert (S2 : objs st2 dst = Some sd) by (unfold st2; rewrite !freed_objs; auto).
    assert (Ep : sw_w ss = Some p) by (destruct Op as (s' & A1 & A2); simpl in A2; congruence).
    assert (Eq : sw_d ss = Some q) by (destruct Oq as (s' & A1 & A2); simpl in A2; congruence).
    assert (Hp : heap st2 p = Some c).
    { unfold st2. rewrite (both_freed_heap st dst sd); auto. intros k. eapply other_not_owned; eauto. }
    assert (Hq : heap st2 q = Some d).
    { unfold st2. rewrite (both_freed_heap st dst sd); auto. intros k. eapply other_not_owned; eauto. }
    eexists. rewrite rbind_ok. eexists. split.
    + apply (clone_into_ok _ _ _ _ sd); auto. exists p, c, c'. auto.
    + apply (clone_into_ok _ _ _ _ (set_slot true sd (Some (nexta st2)))); [simpl; apply upd_eq|].
      exists q, d, d'. repeat split; auto. simpl. rewrite upd_neq; auto.
      assert (q < nexta st) by (apply live_known; auto; unfold live; congruence).
      unfold st2. rewrite !freed_nexta. lia.
  - intros st' E. simpl in E. destruct (objs st dst) as [sd|] eqn:Sd; [|discriminate].
    destruct (objs st src) as [ss|] eqn:Ss; [|discriminate].
    destruct (Nat.eqb_spec dst src) as [->|N].
    { inversion E; subst. split; auto. split; [unfold alive; congruence|]. split; auto. unfold alive; congruence. }
    destruct (del_both st dst sd I Sd) as (E1 & E2). rewrite E1 in E. simpl in E. rewrite E2 in E. simpl in E.
    set (st2 := freed (freed st (sw_w sd)) (sw_d sd)) in *.
    assert (S2 : objs st2 dst = Some sd) by (unfold st2; rewrite !freed_objs; auto).
    apply rbind_ok in E as (st3 & E3 & E4).
    apply (clone_into_ok _ _ _ _ sd) in E3; auto. destruct E3 as (p & c & c' & Ep & Hc & Cc & ->).
    apply (clone_into_ok _ _ _ _ (set_slot true sd (Some (nexta st2)))) in E4; [|simpl; apply upd_eq].
    destruct E4 as (q & d & d' & Eq & Hd & Cd & ->).
    assert (Op : owns st src true p) by (exists ss; auto).
    assert (Oq : owns st src false q) by (exists ss; auto).
    assert (Hc' : heap st p = Some c).
    { rewrite <- (both_freed_heap st dst sd p I Sd); auto. intros k. eapply other_not_owned; eauto. }
    assert (Lq : q < nexta st).
    { apply live_known; auto. destruct I as (_ & _ & _ & W1 & _). apply (W1 _ _ _ Oq). }
    simpl in Hd. rewrite upd_neq in Hd by (unfold st2; rewrite !freed_nexta; lia).
    assert (Hd' : heap st q = Some d).
    { rewrite <- (both_freed_heap st dst sd q I Sd); auto. intros k. eapply other_not_owned; eauto. }
    split.
    { split; [unfold alive; congruence|]. split; [unfold alive; congruence|]. right. exists p, q.
      repeat split; auto; [exists c, c'|exists d, d']; auto. }
    pose proof (both_killed_Inv st dst sd I Sd) as IK.
    destruct (both_killed_seq st dst sd) as (H1 & H2 & H3 & H4 & H5). fold st2 in H1, H2, H3, H4, H5.
    set (kk := both_killed st dst sd) in *. clearbody kk. simpl in H1, H2, H3, H4, H5.
    apply (Inv_ext (fill (fill kk dst true (mkSw None None) c') dst false
      (set_slot true (mkSw None None) (Some (nexta kk))) d')).
    + unfold fill; simpl. rewrite H2. repeat split; auto; simpl.
      * intros r. unfold upd. rewrite H1. auto.
      * intros r. unfold upd. destruct (Nat.eqb_spec r dst); auto. rewrite H3. unfold upd.
        destruct (Nat.eqb_spec r dst); auto; congruence.
    + assert (objs kk dst = Some (mkSw None None)) by (rewrite H3; apply upd_eq).
      apply fill_Inv; [|simpl; apply upd_eq|reflexivity]. apply fill_Inv; auto.
Qed.

Lemma del_one st o k s : Inv st -> objs st o = Some s -> del A (slot k s) st = SOk (freed st (slot k s)).
Proof.
  intros (F1 & F2 & F3 & W1 & W2 & W3) So. apply del_ok. intros a E. apply (W1 o k). exists s; auto.
Qed.
Lemma replace_Inv st o k s c : Inv st -> objs st o = Some s -> Inv (fill (freed st (slot k s)) o k s c).
Proof.
  intros I So. apply (Inv_ext (fill (kill st o k s) o k (set_slot k s None) c)).
  - unfold fill, kill; simpl. rewrite freed_nexta. repeat split; auto; simpl.
    intros r. unfold upd. destruct (Nat.eqb_spec r o); auto. rewrite set_set. auto.
  - apply fill_Inv; [apply kill_Inv; auto|unfold kill; simpl; apply upd_eq|apply slot_set].
Qed.

Lemma good_set_ref st o k p : Inv st -> good st (SetRef o k p).
Proof.
  intros I. split.
  - intros (Al & (c & c' & Hc & Cc) & NO). apply alive_some in Al as (s & So). cbn [SwModel.step]. rewrite So.
    rewrite (del_one st o k s I So). cbn [rbind]. eexists.
    apply (clone_into_ok _ _ _ _ s); [rewrite freed_objs; auto|].
    exists p, c, c'. repeat split; auto. rewrite freed_heap_other; auto. intros E. apply NO. exists s; auto.
  - intros st' E. cbn [SwModel.step] in E. destruct (objs st o) as [s|] eqn:So; [|discriminate].
    rewrite (del_one st o k s I So) in E. cbn [rbind] in E.
    apply (clone_into_ok _ _ _ _ s) in E; [|rewrite freed_objs; auto].
    destruct E as (a & c & c' & Ea & Hc & Cc & ->). inversion Ea; subst a.
    split; [|apply replace_Inv; auto]. split; [unfold alive; congruence|].
    assert (slot k s <> Some p) as NS.
    { intros E. rewrite E in Hc. simpl in Hc. rewrite upd_eq in Hc. discriminate. }
    split.
    + exists c, c'. rewrite freed_heap_other in Hc; auto.
    + intros (s' & A1 & A2). congruence.
Qed.

Lemma good_set_ptr st o k p : Inv st -> good st (SetPtr o k p).
Proof.
  intros I. split.
  - intros (Al & H). apply alive_some in Al as (s & So). cbn [SwModel.step]. rewrite So.
    destruct p as [a|]; [|eauto].
    destruct (slot k s) as [b|] eqn:Sl.
    + destruct (Nat.eqb_spec a b) as [->|N]; [eauto|].
      destruct H as [H|(a' & Ea & H)]; [discriminate|]. inversion Ea; subst a'.
      destruct H as [(s' & A1 & A2)|(c & c' & Hc & Cc)]; [congruence|].
      destruct (good_set_ref st o k a I) as (G & _). cbn [SwModel.step] in G. rewrite So, Sl in G. apply G.
      split; [unfold alive; congruence|]. split; [exists c, c'; auto|]. intros (s' & A1 & A2). congruence.
    + destruct H as [H|(a' & Ea & H)]; [discriminate|]. inversion Ea; subst a'.
      destruct H as [(s' & A1 & A2)|(c & c' & Hc & Cc)]; [congruence|].
      destruct (good_set_ref st o k a I) as (G & _). cbn [SwModel.step] in G. rewrite So, Sl in G. apply G.
      split; [unfold alive; congruence|]. split; [exists c, c'; auto|]. intros (s' & A1 & A2). congruence.
  - intros st' E. cbn [SwModel.step] in E. destruct (objs st o) as [s|] eqn:So; [|discriminate].
    assert (Al : alive st o) by (unfold alive; congruence).
    destruct p as [a|]; [|inversion E; subst; split; auto; split; auto].
    destruct (match slot k s with Some b => Nat.eqb a b | None => false end) eqn:B.
    + inversion E; subst. split; auto. split; auto. right. exists a. split; auto. left.
      destruct (slot k s) as [b|] eqn:Sl; [|discriminate]. apply Nat.eqb_eq in B. subst. exists s; auto.
    + destruct (good_set_ref st o k a I) as (_ & G). specialize (G st').
      cbn [SwModel.step] in G. rewrite So in G. destruct (G E) as ((_ & C & _) & I'). split; auto. split; auto.
      right. exists a. auto.
Qed.

Lemma good_mutate st o k f : Inv st -> good st (Mutate o k f).
Proof.
  intros I. split.
  - intros (p & s & So & Sl). simpl. rewrite So, Sl.
    destruct I as (_ & _ & _ & W1 & _). assert (live st p) as L by (apply (W1 o k); exists s; auto).
    unfold live in L. destruct (heap st p); [eauto|congruence].
  - intros st' E. simpl in E. destruct (objs st o) as [s|] eqn:So; [|discriminate].
    destruct (slot k s) as [p|] eqn:Sl; [|discriminate]. destruct (heap st p) as [a|] eqn:Ha; [|discriminate].
    split; [exists p, s; auto|]. inversion E; subst.
    assert (LV : forall q, live (set_heap A st (upd (heap st) p (Some (f a)))) q <-> live st q).
    { intros q. unfold live; simpl. unfold upd. destruct (Nat.eqb_spec q p); subst; [|tauto].
      rewrite Ha. split; discriminate. }
    destruct I as (F1 & F2 & F3 & W1 & W2 & W3).
    split; [|split; [auto|split; [|split; [|split]]]].
    + intros q L. simpl in *. unfold upd. destruct (Nat.eqb_spec q p); subst; auto. rewrite F1 in Ha; [discriminate|auto].
    + intros q C. apply LV, F3; auto.
    + intros o' k' q O. rewrite LV. apply (W1 o' k' q O).
    + intros; eauto.
    + intros q L. apply LV in L. apply W3; auto.
Qed.

Lemma good_use st o : Inv st -> good st (Use o).
Proof.
  intros I. split.
  - intros (p & q & (s & So & Sp) & (s2 & So2 & Sq)). assert (s2 = s) by congruence. subst s2. simpl in *.
    rewrite So, Sp, Sq. destruct I as (_ & _ & _ & W1 & _).
    assert (live st p) as Lp by (apply (W1 o true); exists s; auto).
    assert (live st q) as Lq by (apply (W1 o false); exists s; auto). unfold live in *.
    destruct (heap st p), (heap st q); try congruence. eauto.
  - intros st' E. simpl in E. destruct (objs st o) as [s|] eqn:So; [|discriminate].
    destruct (sw_w s) as [p|] eqn:Sp; [|discriminate]. destruct (sw_d s) as [q|] eqn:Sq; [|discriminate].
    destruct (heap st p); [|discriminate]. destruct (heap st q); [|discriminate]. inversion E; subst.
    split; auto. exists p, q. split; exists s; auto.
Qed.

Lemma good_all st x : Inv st -> good st x.
Proof.
  destruct x; [apply good_caller_new|apply good_caller_delete|apply good_new_default|apply good_new_from|
    apply good_copy_ctor|apply good_move_ctor|apply good_copy_assign|apply good_move_assign|
    apply good_set_ptr|apply good_set_ref|apply good_destroy|apply good_mutate|apply good_use].
Qed.

Lemma run_Inv l : forall st st', Inv st -> run st l = SOk st' -> Inv st'.
Proof.
  induction l as [|x l IH]; simpl; intros st st' I E.
  - inversion E; subst; auto.
  - apply rbind_ok in E as (s & E1 & E2). apply (IH s); auto. apply (good_all st x I); auto.
Qed.

(** ** C19 *)
Lemma C19_main : forall l st, run init l = SOk st ->
  well_owned st /\
  ((forall o, ~ alive st o) -> forall p, live st p -> caller st p = true).
Proof.
  intros l st E. pose proof (run_Inv l _ _ init_Inv E) as (F1 & F2 & F3 & W). split; auto.
  intros N p L. destruct W as (_ & _ & W3). destruct (W3 p L) as [C|(o & k & s & O & _)]; auto.
  exfalso. apply (N o). unfold alive. congruence.
Qed.
Lemma C19_exact_main : forall l st x, run init l = SOk st ->
  ((exists st', step st x = SOk st') <-> fine cln st x).
Proof.
  intros l st x E. pose proof (run_Inv l _ _ init_Inv E) as I. destruct (good_all st x I) as (G1 & G2).
  split; auto. intros (st' & E'). apply (G2 st'); auto.
Qed.

(** ** C20 *)
Lemma content_frame (st st' : state) o k :
  (forall p, owns st o k p -> heap st' p = heap st p) -> objs st' o = objs st o ->
  content st' o k = content st o k.
Proof.
  intros H E. unfold content. rewrite E. destruct (objs st o) as [s|] eqn:So; auto.
  destruct (slot k s) as [p|] eqn:Sl; auto. apply H. exists s; auto.
Qed.

Lemma freed_frame (st : state) p q : heap (freed st p) q <> heap st q -> p = Some q.
Proof.
  destruct p as [a|]; simpl; [|congruence]. destruct (Nat.eq_dec q a) as [->|N]; auto. rewrite upd_neq by auto. congruence.
Qed.

Lemma step_frame st x st' o k : Inv st -> alive st o -> ~ touches o x -> step st x = SOk st' ->
  content st' o k = content st o k /\ alive st' o.
Proof.
  intros I Al NT E. pose proof I as (F1 & F2 & F3 & W1 & W2 & W3).
  assert (No : o <> nexto st) by (intros ->; apply Al, F2; lia).
  assert (Fr : forall k p, owns st o k p -> p <> nexta st).
  { intros k' p O ->. destruct (W1 _ _ _ O) as (L & _). apply L, F1. lia. }
  assert (FrN : forall k p s q k', owns st o k p -> q <> o -> objs st q = Some s -> slot k' s <> Some p).
  { intros k1 p s q k2 O N Sq Sl. destruct (W2 o k1 q k2 p O); [exists s; auto|congruence]. }
  enough (objs st' o = objs st o /\ forall p, owns st o k p -> heap st' p = heap st p) as (H1 & H2).
  { split; [apply content_frame; auto|unfold alive; rewrite H1; auto]. }
  destruct x as [a|p| |pw pd|q|q|dst src|dst src|q kk p|q kk p|q|q kk f|q]; cbn [SwModel.step] in E; cbn [touches] in NT.
  - inversion E; subst; simpl. split; auto. intros. apply upd_neq; eauto.
  - destruct (caller st p) eqn:C; [|discriminate]. inversion E; subst; simpl. split; auto.
    intros r O. apply upd_neq. intros ->. destruct (W1 _ _ _ O). congruence.
  - inversion E; subst; simpl. split; auto. apply upd_neq; auto.
  - destruct (known A st pd) eqn:K; [|discriminate]. rewrite ctor_ok, construct_ok in E by auto.
    destruct E as (p & q & c & c' & d & d' & -> & -> & Hc & Cc & Hd & Cd & ->). simpl. split.
    + rewrite !upd_neq; auto.
    + intros r O. pose proof (Fr _ _ O). destruct (W1 _ _ _ O) as (L & _). pose proof (live_known st r I L).
      rewrite !upd_neq; auto; lia.
  - destruct (objs st q) as [s|] eqn:Sq; [|discriminate].
    rewrite ctor_ok, construct_ok in E; auto; [|apply (owned_known st s false q); auto].
    destruct E as (p & r & c & c' & d & d' & Ep & Eq & Hc & Cc & Hd & Cd & ->). simpl. split.
    + rewrite !upd_neq; auto.
    + intros t O. destruct (W1 _ _ _ O) as (L & _). pose proof (live_known st t I L). rewrite !upd_neq; auto; lia.
  - destruct (objs st q) as [s|] eqn:Sq; [|discriminate]. inversion E; subst; simpl. split; auto.
    rewrite !upd_neq; auto.
  - destruct (objs st dst) as [sd|] eqn:Sd; [|discriminate]. destruct (objs st src) as [ss|] eqn:Ss; [|discriminate].
    destruct (Nat.eqb_spec dst src) as [->|N]; [inversion E; subst; auto|].
    destruct (del_both st dst sd I Sd) as (E1 & E2). rewrite E1 in E. simpl in E. rewrite E2 in E. simpl in E.
    set (st2 := freed (freed st (sw_w sd)) (sw_d sd)) in *.
    assert (S2 : objs st2 dst = Some sd) by (unfold st2; rewrite !freed_objs; auto).
    apply rbind_ok in E as (st3 & E3 & E4).
    apply (clone_into_ok _ _ _ _ sd) in E3; auto. destruct E3 as (p & c & c' & Ep & Hc & Cc & ->).
    apply (clone_into_ok _ _ _ _ (set_slot true sd (Some (nexta st2)))) in E4; [|simpl; apply upd_eq].
    destruct E4 as (q & d & d' & Eq & Hd & Cd & ->). simpl. split.
    + rewrite !upd_neq by auto. unfold st2. rewrite !freed_objs. auto.
    + intros r O. destruct (W1 _ _ _ O) as (L & _). pose proof (live_known st r I L).
      assert (nexta st2 = nexta st) by (unfold st2; rewrite !freed_nexta; auto).
      rewrite !upd_neq by lia. unfold st2. apply (both_freed_heap st dst sd); auto.
      intros k2 O2. destruct (W2 _ _ _ _ _ O O2). congruence.
  - destruct (objs st dst) as [sd|] eqn:Sd; [|discriminate]. destruct (objs st src) as [ss|] eqn:Ss; [|discriminate].
    destruct (Nat.eqb_spec dst src) as [->|N]; [inversion E; subst; auto|].
    destruct (del_both st dst sd I Sd) as (E1 & E2). rewrite E1 in E. simpl in E. rewrite E2 in E. simpl in E.
    inversion E; subst; simpl. split.
    + rewrite !upd_neq by auto. rewrite !freed_objs. auto.
    + intros r O. apply (both_freed_heap st dst sd); auto. intros k2 O2. destruct (W2 _ _ _ _ _ O O2). apply NT; auto.
  - destruct (objs st q) as [s|] eqn:Sq; [|discriminate]. destruct p as [a|]; [|inversion E; subst; auto].
    destruct (match slot kk s with Some b => Nat.eqb a b | None => false end); [inversion E; subst; auto|].
    rewrite (del_one st q kk s I Sq) in E. cbn [rbind] in E.
    apply (clone_into_ok _ _ _ _ s) in E; [|rewrite freed_objs; auto].
    destruct E as (a' & c & c' & Ea & Hc & Cc & ->). simpl. rewrite freed_objs, freed_nexta. split.
    + apply upd_neq; auto.
    + intros r O. rewrite upd_neq by eauto. apply freed_heap_other. eapply FrN; eauto.
  - destruct (objs st q) as [s|] eqn:Sq; [|discriminate].
    rewrite (del_one st q kk s I Sq) in E. cbn [rbind] in E.
    apply (clone_into_ok _ _ _ _ s) in E; [|rewrite freed_objs; auto].
    destruct E as (a' & c & c' & Ea & Hc & Cc & ->). simpl. rewrite freed_objs, freed_nexta. split.
    + apply upd_neq; auto.
    + intros r O. rewrite upd_neq by eauto. apply freed_heap_other. eapply FrN; eauto.
  - destruct (objs st q) as [s|] eqn:Sq; [|discriminate].
    destruct (del_both st q s I Sq) as (E1 & E2). rewrite E1 in E. simpl in E. rewrite E2 in E. simpl in E.
    inversion E; subst; simpl. split.
    + rewrite !upd_neq by auto. rewrite !freed_objs. auto.
    + intros r O. apply (both_freed_heap st q s); auto. intros k2 O2. destruct (W2 _ _ _ _ _ O O2). apply NT; auto.
  - destruct (objs st q) as [s|] eqn:Sq; [|discriminate]. destruct (slot kk s) as [p|] eqn:Sl; [|discriminate].
    destruct (heap st p) as [a|] eqn:Ha; [|discriminate]. inversion E; subst; simpl. split; auto.
    intros r O. apply upd_neq. intros ->. eapply FrN; eauto.
  - destruct (objs st q) as [s|]; [|discriminate]. destruct (sw_w s); [|discriminate]. destruct (sw_d s); [|discriminate].
    destruct (heap st n); [|discriminate]. destruct (heap st n0); [|discriminate]. inversion E; subst; auto.
Qed.

Lemma run_frame l : forall st st' o k, Inv st -> alive st o -> (forall x, In x l -> ~ touches o x) ->
  run st l = SOk st' -> content st' o k = content st o k.
Proof.
  induction l as [|x l IH]; simpl; intros st st' o k I Al NT E.
  - inversion E; subst; auto.
  - apply rbind_ok in E as (s & E1 & E2).
    destruct (step_frame st x s o k I Al (NT x (or_introl eq_refl)) E1) as (C & Al').
    rewrite <- C. apply (IH s); auto. apply (good_all st x I); auto.
Qed.

Lemma C20_frame_main : forall l1 l2 st st' o k,
  run init l1 = SOk st -> alive st o -> (forall x, In x l2 -> ~ touches o x) ->
  run st l2 = SOk st' -> content st' o k = content st o k.
Proof. intros. eapply run_frame; eauto. eapply run_Inv; eauto. apply init_Inv. Qed.

Lemma C20_copy_main : forall l st st' src k,
  run init l = SOk st -> step st (CopyCtor src) = SOk st' ->
  exists a b, content st src k = Some a /\ cln a = Some b /\
    content st' (nexto st) k = Some b /\ content st' src k = Some a /\ nexto st <> src.
Proof.
  intros l st st' src k R E. pose proof (run_Inv _ _ _ init_Inv R) as I.
  assert (alive st src) as Al.
  { simpl in E. unfold alive. destruct (objs st src); congruence. }
  assert (nexto st <> src) as N. { intros <-. apply Al. destruct I as (_ & F2 & _). apply F2. lia. }
  destruct (step_frame st (CopyCtor src) st' src k I Al (fun x => x) E) as (C & _).
  simpl in E. destruct (objs st src) as [s|] eqn:So; [|discriminate].
  rewrite ctor_ok, construct_ok in E; auto; [|apply (owned_known st s false src); auto].
  destruct E as (p & q & c & c' & d & d' & Ep & Eq & Hc & Cc & Hd & Cd & ->).
  assert (content st src k = Some (if k then c else d)) as Q.
  { unfold content. rewrite So. destruct k; simpl; [rewrite Ep|rewrite Eq]; auto. }
  exists (if k then c else d), (if k then c' else d'). split; auto. split; [destruct k; auto|].
  split; [|split; [congruence|auto]].
  unfold content; simpl. rewrite upd_eq. destruct k; simpl.
  - rewrite upd_neq by lia. apply upd_eq.
  - apply upd_eq.
Qed.
Lemma C20_assign_main : forall l st st' dst src k,
  run init l = SOk st -> dst <> src -> step st (CopyAssign dst src) = SOk st' ->
  exists a b, content st src k = Some a /\ cln a = Some b /\
    content st' dst k = Some b /\ content st' src k = Some a.
Proof.
  intros l st st' dst src k R N E. pose proof (run_Inv _ _ _ init_Inv R) as I.
  assert (alive st src) as Al.
  { simpl in E. unfold alive. destruct (objs st dst), (objs st src); congruence. }
  destruct (step_frame st (CopyAssign dst src) st' src k I Al N E) as (C & _).
  destruct (good_copy_assign st dst src I) as (_ & G). destruct (G st' E) as ((_ & _ & F) & _).
  destruct F as [F|(p & q & Op & Oq & (c & c' & Hc & Cc) & (d & d' & Hd & Cd))]; [congruence|].
  cbn [SwModel.step] in E. destruct (objs st dst) as [sd|] eqn:Sd; [|discriminate].
  destruct Op as (ss & Ss & Ep). destruct Oq as (ss' & Ss' & Eq). assert (ss' = ss) by congruence. subst ss'.
  rewrite Ss in E. simpl in Ep, Eq. rewrite Ep, Eq in E. destruct (Nat.eqb_spec dst src) as [|_]; [congruence|].
  destruct (del_both st dst sd I Sd) as (E1 & E2). rewrite E1 in E. cbn [rbind] in E. rewrite E2 in E.
  cbn [rbind] in E.
  set (st2 := freed (freed st (sw_w sd)) (sw_d sd)) in *.
  assert (S2 : objs st2 dst = Some sd) by (unfold st2; rewrite !freed_objs; auto).
  apply rbind_ok in E as (st3 & E3 & E4).
  apply (clone_into_ok _ _ _ _ sd) in E3; auto. destruct E3 as (p' & x & x' & Ep' & Hx & Cx & ->).
  apply (clone_into_ok _ _ _ _ (set_slot true sd (Some (nexta st2)))) in E4; [|simpl; apply upd_eq].
  destruct E4 as (q' & y & y' & Eq' & Hy & Cy & ->). inversion Ep'; inversion Eq'; subst p' q'.
  assert (Op : owns st src true p) by (exists ss; auto). assert (Oq : owns st src false q) by (exists ss; auto).
  unfold st2 in Hx. rewrite (both_freed_heap st dst sd) in Hx; auto; [|intros; eapply other_not_owned; eauto].
  assert (q < nexta st) by (apply live_known; auto; unfold live; congruence).
  assert (nexta st2 = nexta st) as Nx by (unfold st2; rewrite !freed_nexta; auto).
  simpl in Hy. rewrite upd_neq in Hy by lia. unfold st2 in Hy.
  rewrite (both_freed_heap st dst sd) in Hy; auto; [|intros; eapply other_not_owned; eauto].
  assert (content st src k = Some (if k then c else d)) as Q.
  { unfold content. rewrite Ss. destruct k; simpl; [rewrite Ep|rewrite Eq]; auto. }
  exists (if k then c else d), (if k then c' else d'). split; auto. split; [destruct k; auto|].
  split; [|congruence].
  unfold content; simpl. rewrite upd_eq. destruct k; simpl.
  - rewrite upd_neq by lia. rewrite upd_eq. congruence.
  - rewrite upd_eq. congruence.
Qed.
Lemma C20_new_main : forall l st st' p q,
  run init l = SOk st -> step st (NewFrom (Some p) (Some q)) = SOk st' ->
  exists a b c d, heap st p = Some a /\ cln a = Some b /\ heap st q = Some c /\ cln c = Some d /\
    content st' (nexto st) true = Some b /\ content st' (nexto st) false = Some d.
Proof.
  intros l st st' p q R E. pose proof (run_Inv _ _ _ init_Inv R) as I. cbn [SwModel.step] in E.
  destruct (known A st (Some q)) eqn:K; [|discriminate].
  rewrite ctor_ok, construct_ok in E; auto.
  destruct E as (p' & q' & c & c' & d & d' & Ep & Eq & Hc & Cc & Hd & Cd & ->). inversion Ep; inversion Eq; subst p' q'.
  exists c, c', d, d'. split; auto. split; auto. split; auto. split; auto.
  unfold content; simpl. rewrite upd_eq. simpl. split; [rewrite upd_neq by lia|]; apply upd_eq.
Qed.
Lemma C20_move_main : forall l st st' src k,
  run init l = SOk st -> step st (MoveCtor src) = SOk st' ->
  content st' (nexto st) k = content st src k /\ content st' src k = None.
Proof.
  intros l st st' src k R E. pose proof (run_Inv _ _ _ init_Inv R) as I. simpl in E.
  destruct (objs st src) as [s|] eqn:So; [|discriminate].
  assert (No : nexto st <> src). { intros <-. destruct I as (_ & F2 & _). rewrite F2 in So; [discriminate|lia]. }
  inversion E; subst. unfold content; simpl. rewrite upd_eq, So. split; auto.
  rewrite upd_neq by auto. rewrite upd_eq. destruct k; reflexivity.
Qed.
Lemma C20_move_assign_main : forall l st st' dst src k,
  run init l = SOk st -> dst <> src -> step st (MoveAssign dst src) = SOk st' ->
  content st' dst k = content st src k /\ content st' src k = None.
Proof.
  intros l st st' dst src k R N E. pose proof (run_Inv _ _ _ init_Inv R) as I. cbn [SwModel.step] in E.
  destruct (objs st dst) as [sd|] eqn:Sd; [|discriminate]. destruct (objs st src) as [ss|] eqn:Ss; [|discriminate].
  destruct (Nat.eqb_spec dst src) as [|_]; [congruence|].
  destruct (del_both st dst sd I Sd) as (E1 & E2). rewrite E1 in E. cbn [rbind] in E. rewrite E2 in E.
  cbn [rbind] in E. inversion E; subst. unfold content; simpl. rewrite upd_eq. rewrite upd_neq by auto. rewrite upd_eq, Ss.
  split; [|destruct k; reflexivity]. destruct (slot k ss) as [p|] eqn:Sl; auto.
  apply (both_freed_heap st dst sd); auto. intros k2.
  apply (other_not_owned st src dst k k2 p); auto. exists ss; auto.
Qed.
Lemma C20_set_ref_main : forall l st st' o k p,
  run init l = SOk st -> step st (SetRef o k p) = SOk st' ->
  exists a b, heap st p = Some a /\ cln a = Some b /\ content st' o k = Some b /\
    content st' o (negb k) = content st o (negb k).
Proof.
  intros l st st' o k p R E. pose proof (run_Inv _ _ _ init_Inv R) as I. cbn [SwModel.step] in E.
  destruct (objs st o) as [s|] eqn:So; [|discriminate].
  rewrite (del_one st o k s I So) in E. cbn [rbind] in E.
  apply (clone_into_ok _ _ _ _ s) in E; [|rewrite freed_objs; auto].
  destruct E as (a & c & c' & Ea & Hc & Cc & ->). inversion Ea; subst a.
  assert (slot k s <> Some p) as NS.
  { intros E. rewrite E in Hc. simpl in Hc. rewrite upd_eq in Hc. discriminate. }
  rewrite freed_heap_other in Hc by auto. exists c, c'. split; auto. split; auto.
  unfold content; simpl. rewrite upd_eq, So, slot_set, upd_eq. split; auto.
  rewrite slot_set_neq by (destruct k; discriminate).
  destruct (slot (negb k) s) as [q|] eqn:Sl; auto.
  destruct I as (F1 & _ & _ & W1 & W2 & _).
  assert (owns st o (negb k) q) as O by (exists s; auto).
  rewrite freed_nexta, upd_neq.
  - apply freed_heap_other. intros Sk. assert (owns st o k q) as O' by (exists s; auto).
    destruct (W2 _ _ _ _ _ O O') as [_ X]. destruct k; discriminate.
  - intros ->. destruct (W1 _ _ _ O) as (L & _). apply L. apply F1. lia.
Qed.
Lemma C20_set_ptr_main : forall l st st' o k p,
  run init l = SOk st -> step st (SetPtr o k (Some p)) = SOk st' ->
  (owns st o k p /\ st' = st) \/
  exists a b, heap st p = Some a /\ cln a = Some b /\ content st' o k = Some b /\
    content st' o (negb k) = content st o (negb k).
Proof.
  intros l st st' o k p R E. cbn [SwModel.step] in E. destruct (objs st o) as [s|] eqn:So; [|discriminate].
  destruct (match slot k s with Some b => Nat.eqb p b | None => false end) eqn:B.
  - left. inversion E; subst. split; auto. destruct (slot k s) as [b|] eqn:Sl; [|discriminate].
    apply Nat.eqb_eq in B. subst. exists s; auto.
  - right. apply (C20_set_ref_main l st st' o k p R). cbn [SwModel.step]. rewrite So. exact E.
Qed.
Lemma C20_mutate_main : forall l st st' o k f,
  run init l = SOk st -> step st (Mutate o k f) = SOk st' ->
  exists a, content st o k = Some a /\ content st' o k = Some (f a) /\ content st' o (negb k) = content st o (negb k).
Proof.
  intros l st st' o k f R E. pose proof (run_Inv _ _ _ init_Inv R) as I. simpl in E.
  destruct (objs st o) as [s|] eqn:So; [|discriminate]. destruct (slot k s) as [p|] eqn:Sl; [|discriminate].
  destruct (heap st p) as [a|] eqn:Ha; [|discriminate]. inversion E; subst. exists a.
  unfold content; simpl. rewrite So, Sl, upd_eq. split; auto. split; auto.
  destruct (slot (negb k) s) as [q|] eqn:Sq; auto. apply upd_neq. intros ->.
  destruct I as (_ & _ & _ & _ & W2 & _).
  assert (owns st o (negb k) p) as O by (exists s; auto). assert (owns st o k p) as O' by (exists s; auto).
  destruct (W2 _ _ _ _ _ O O') as [_ X]. destruct k; discriminate.
Qed.
End Proofs.

(** The state a result carries (only used to name witnesses). *)
Definition final (r : res nat) : state nat := match r with SOk s | SThrow s => s | SUB => init end.
Definition picky (n : nat) : option nat := match n with 0 => None | _ => Some n end.
Definition w1 : state nat := final (run nat picky init
     [CallerNew 1; CallerNew 0; NewFrom (Some 0) (Some 0); NewDefault; NewDefault; SetPtr 1 true (Some 0);
      SetPtr 1 false (Some 0); Mutate 1 false (fun _ => 0)]).
Definition w2 : state nat := final (run nat picky init [CallerNew 1; CallerNew 0]).
Definition w3 : state nat := final (run nat Some init [CallerNew 7; CallerNew 8; NewFrom (Some 0) (Some 1); CopyCtor 0]).
Lemma C19_refuted_main :
  run nat Some init [NewDefault; CopyCtor 0] = SUB /\
  run nat Some init [CallerNew 7; CallerNew 8; NewFrom (Some 0) (Some 1); MoveCtor 0; CopyCtor 0] = SUB /\
  run nat Some init [CallerNew 7; CallerNew 8; NewFrom (Some 0) (Some 1); SetRef 0 true 2] = SUB /\
  (exists cln st st', run nat cln init
     [CallerNew 1; CallerNew 0; NewFrom (Some 0) (Some 0); NewDefault; NewDefault; SetPtr 1 true (Some 0);
      SetPtr 1 false (Some 0); Mutate 1 false (fun _ => 0)] = SOk st /\
     step nat cln st (CopyAssign 0 1) = SThrow st' /\ step nat cln st' (Destroy 0) = SUB).
Proof.
  split; [vm_compute; reflexivity|]. split; [vm_compute; reflexivity|]. split; [vm_compute; reflexivity|].
  exists picky, w1, (final (step nat picky w1 (CopyAssign 0 1))).
  split; [vm_compute; reflexivity|]. split; [vm_compute; reflexivity|]. vm_compute; reflexivity.
Qed.
Lemma C19_leak_main : exists cln st st' p,
  run nat cln init [CallerNew 1; CallerNew 0] = SOk st /\
  step nat cln st (NewFrom (Some 0) (Some 1)) = SThrow st' /\
  live st' p /\ caller st' p = false /\ forall o k, ~ owns st' o k p.
Proof.
  exists picky, w2, (final (step nat picky w2 (NewFrom (Some 0) (Some 1)))), 2.
  split; [vm_compute; reflexivity|]. split; [vm_compute; reflexivity|].
  split; [vm_compute; discriminate|]. split; [vm_compute; reflexivity|].
  intros o k (s & E & _). vm_compute in E. destruct o; discriminate.
Qed.
Lemma C19_pointer_main : forall A (cln : A -> option A) l st st' o k p,
  run A cln init l = SOk st -> caller st p = true -> step A cln st (SetPtr o k (Some p)) = SOk st' ->
  live st' p /\ caller st' p = true /\ forall o' k', ~ owns st' o' k' p.
Proof.
  intros A cln l st st' o k p R C E. pose proof (run_Inv A cln l _ _ (init_Inv A) R) as I.
  destruct (good_all A cln st (SetPtr o k (Some p)) I) as (_ & G). destruct (G st' E) as (_ & I').
  assert (caller st' = caller st) as Q.
  { cbn [step] in E. destruct (objs st o) as [s|] eqn:So; [|discriminate].
    destruct (match slot k s with Some b => Nat.eqb p b | None => false end); [inversion E; auto|].
    rewrite (del_one A st o k s I So) in E. cbn [rbind] in E.
    apply (clone_into_ok A cln _ _ _ _ s) in E; [|rewrite freed_objs; auto].
    destruct E as (a & c & c' & _ & _ & _ & ->). simpl. apply freed_caller. }
  assert (caller st' p = true) as C' by congruence.
  destruct I' as (_ & _ & F3 & W1 & _). split; [apply F3; auto|]. split; auto.
  intros o' k' O. destruct (W1 _ _ _ O). congruence.
Qed.
Lemma C20_case_main : exists st st',
  run nat Some init [CallerNew 7; CallerNew 8; NewFrom (Some 0) (Some 1); CopyCtor 0] = SOk st /\ alive st 0 /\
  (forall x, In x [Mutate 1 true (fun _ => 9); CopyCtor 0; Destroy 1] -> ~ touches 0 x) /\
  run nat Some st [Mutate 1 true (fun _ => 9); CopyCtor 0; Destroy 1] = SOk st' /\ content st' 0 true = Some 7.
Proof.
  exists w3, (final (run nat Some w3 [Mutate 1 true (fun _ => 9); CopyCtor 0; Destroy 1])).
  split; [vm_compute; reflexivity|]. split; [vm_compute; discriminate|].
  split; [|split; [vm_compute; reflexivity|vm_compute; reflexivity]].
  intros x [<-|[<-|[<-|[]]]]; simpl; auto; discriminate.
Qed.

Definition c19_demo : list (op nat) :=
  [CallerNew 7; CallerNew 8; NewFrom (Some 0) (Some 1); CopyCtor 0; NewDefault; CopyAssign 2 1; MoveCtor 0;
   MoveAssign 1 3; SetPtr 1 true (Some 0); SetRef 2 false 1; Use 1; Destroy 0; Destroy 1; Destroy 2; Destroy 3].
Lemma C19_case_main : exists st, run nat Some init c19_demo = SOk st.
Proof. exists (final (run nat Some init c19_demo)). vm_compute. reflexivity. Qed.
Lemma C19_pointer_case_main : exists st st', run nat Some init [CallerNew 7; NewDefault] = SOk st /\
  caller st 0 = true /\ step nat Some st (SetPtr 0 true (Some 0)) = SOk st'.
Proof.
  exists (final (run nat Some init [CallerNew 7; NewDefault])),
    (final (step nat Some (final (run nat Some init [CallerNew 7; NewDefault])) (SetPtr 0 true (Some 0)))).
  vm_compute. auto.
Qed.
