(** Proofs about the processes of distributed selection (C165), for any actions. *)
From Coq Require Import Reals Bool List Arith Lia Lra Permutation.
From Verif Require Import XReal Sums MpiModel MpiSelModel MpiSelSpec.
Import ListNotations.
Local Open Scope R_scope.

(** ** Sums of vectors *)
Lemma vadd_cons x u y v : vadd (x :: u) (y :: v) = (x + y) :: vadd u v.
Proof. reflexivity. Qed.
Lemma vadd_comm u : forall v, vadd u v = vadd v u.
Proof.
  induction u as [|x u IH]; intros [|y v]; try reflexivity.
  rewrite !vadd_cons, IH. f_equal. lra.
Qed.
Lemma vadd_assoc u : forall v z, vadd (vadd u v) z = vadd u (vadd v z).
Proof.
  induction u as [|x u IH]; intros [|y v] [|t z]; try reflexivity.
  rewrite !vadd_cons, IH. f_equal. lra.
Qed.
Lemma fold_perm l l' : Permutation l l' -> forall a, fold_left vadd l a = fold_left vadd l' a.
Proof.
  induction 1 as [|x l l' _ IH|x y l|l1 l2 l3 _ IH1 _ IH2]; intros a; cbn.
  - reflexivity.
  - apply IH.
  - f_equal. rewrite !vadd_assoc, (vadd_comm y x). reflexivity.
  - rewrite IH1. apply IH2.
Qed.

Lemma complete_iff w tags got :
  complete w tags got = true <-> (forall s t, (1 <= s < w)%nat -> (t < tags)%nat -> In (s, t) got).
Proof.
  unfold complete. rewrite forallb_forall. split.
  - intros H s t Hs Ht. specialize (H s). rewrite in_seq in H. specialize (H ltac:(lia)).
    rewrite forallb_forall in H. specialize (H t). rewrite in_seq in H. specialize (H ltac:(lia)).
    apply existsb_exists in H. destruct H as [[a b] [I E]]. cbn in E.
    apply andb_true_iff in E. destruct E as [E1 E2]. apply Nat.eqb_eq in E1, E2. now subst.
  - intros H s Hs. apply in_seq in Hs. apply forallb_forall. intros t Ht. apply in_seq in Ht.
    apply existsb_exists. exists (s, t). split; [apply H; lia|].
    cbn. now rewrite !Nat.eqb_refl.
Qed.

Lemma has_msg_iff s t l : has_msg s t l = true <-> In (s, t) (map fst l).
Proof.
  unfold has_msg. rewrite existsb_exists, in_map_iff. split.
  - intros [[[a b] v] [I E]]. cbn in E. apply andb_true_iff in E. destruct E as [E1 E2].
    apply Nat.eqb_eq in E1, E2. subst. exists ((s, t), v). auto.
  - intros [[[a b] v] [E I]]. cbn in E. injection E as -> ->. exists ((s, t), v).
    split; [assumption|]. cbn. now rewrite !Nat.eqb_refl.
Qed.

Lemma upd_same {B} (f : nat -> B) i x : upd f i x i = x.
Proof. unfold upd. now rewrite Nat.eqb_refl. Qed.
Lemma upd_other {B} (f : nat -> B) i j x : j <> i -> upd f i x j = f j.
Proof. intros H. unfold upd. destruct (Nat.eqb_spec j i); congruence. Qed.

Section Sys.
Variable A : Type.
Variables w tags : nat.
Variable eager : bool.
Variable todo : nat -> list xd -> action A.
Variable value : list (list R) -> xd.
Hypothesis Htags : (0 < tags)%nat.
Hypothesis Hw : (0 < w)%nat.

Notation rounds := (rounds A w tags todo value).
Notation step := (step A w tags eager todo value).
Notation moves := (moves A w tags eager todo value).
Notation round_value := (round_value w tags value).

(** ** Rounds *)
Lemma rounds_snoc hs v : rounds (hs ++ [v]) ->
  rounds hs /\ exists fs, (forall p, (p < w)%nat -> todo p hs = Share (fs p)) /\ v = round_value fs.
Proof.
  intros H. inversion H as [E|hs' fs H1 H2 E].
  - destruct hs; discriminate.
  - apply app_inj_tail in E. destruct E as [E1 E2]. subst hs' v. split; [assumption|]. exists fs. auto.
Qed.

Lemma round_value_ext fs fs' : (forall p, (p < w)%nat -> fs p = fs' p) -> round_value fs = round_value fs'.
Proof.
  intros H. unfold MpiSelSpec.round_value. f_equal. apply map_ext. intros t.
  rewrite (H 0%nat Hw). f_equal. apply map_ext_in. intros s Hs. apply in_seq in Hs.
  now rewrite H by lia.
Qed.

Lemma rounds_unique hs : forall hs', rounds hs -> rounds hs' -> length hs = length hs' -> hs = hs'.
Proof.
  induction hs as [|v hs IH] using rev_ind; intros hs' H H' L.
  - destruct hs'; [reflexivity|discriminate].
  - destruct hs' as [|v' hs' _] using rev_ind.
    + rewrite app_length in L. cbn in L. lia.
    + rewrite !app_length in L. cbn in L.
      destruct (rounds_snoc _ _ H) as [H1 [fs [S1 ->]]].
      destruct (rounds_snoc _ _ H') as [H2 [fs' [S2 ->]]].
      assert (hs = hs') by (apply IH; auto; lia). subst hs'. f_equal. f_equal.
      apply round_value_ext. intros p Hp. specialize (S1 p Hp). specialize (S2 p Hp).
      rewrite S1 in S2. now injection S2.
Qed.

Lemma rounds_firstn hs : rounds hs -> forall k, rounds (firstn k hs).
Proof.
  induction 1 as [|hs fs H IH HS]; intros k.
  - rewrite firstn_nil. constructor.
  - destruct (le_lt_dec k (length hs)) as [L|L].
    + rewrite firstn_app. replace (k - length hs)%nat with 0%nat by lia. cbn. rewrite app_nil_r. apply IH.
    + rewrite firstn_all2 by (rewrite app_length; cbn; lia). now constructor.
Qed.

(** Rounds that stop somewhere bound all rounds. *)
Lemma rounds_bound F p : rounds F -> (p < w)%nat -> (forall f, todo p F <> Share f) ->
  forall hs, rounds hs -> (length hs <= length F)%nat /\ hs = firstn (length hs) F.
Proof.
  intros HF Hp HN hs H.
  assert (L : (length hs <= length F)%nat).
  { destruct (le_lt_dec (length hs) (length F)) as [L|L]; [assumption|exfalso].
    assert (HS := rounds_firstn _ H (S (length F))).
    destruct (nth_error hs (length F)) as [v|] eqn:Ev.
    2: { apply nth_error_None in Ev. lia. }
    assert (E : firstn (S (length F)) hs = firstn (length F) hs ++ [v]).
    { clear - Ev. revert hs Ev. induction (length F) as [|k IH]; intros [|x hs] Ev; try discriminate.
      - cbn in Ev. injection Ev as ->. reflexivity.
      - cbn in Ev. specialize (IH _ Ev). change (x :: firstn (S k) hs = x :: (firstn k hs ++ [v])).
        now rewrite IH. }
    rewrite E in HS. destruct (rounds_snoc _ _ HS) as [H1 [fs [S1 _]]].
    assert (EF : firstn (length F) hs = F).
    { apply rounds_unique; auto. rewrite firstn_length. lia. }
    rewrite EF in S1. exact (HN _ (S1 p Hp)). }
  split; [assumption|].
  apply rounds_unique; auto using rounds_firstn. rewrite firstn_length. lia.
Qed.

(** ** The invariant *)
Definition got_of (m : mstate A) : list (nat * nat) :=
  match m with MRecv _ got _ => got | _ => [] end.

Definition postedw (b : list xd) (x : wstate A) (t : nat) : Prop :=
  match x with
  | WSend hs t' => hs = b /\ (t <= t')%nat
  | WWait hs => hs = b /\ (t < tags)%nat
  | _ => False
  end.

Definition wcur (s : nat) (x : wstate A) : Prop :=
  match x with
  | WAt _ => True
  | WSend hs t => (t < tags)%nat /\ exists f, todo s hs = Share f
  | WWait hs => exists f, todo s hs = Share f
  | WDone hs a => todo s hs = Answer a
  | WThrew hs => todo s hs = Raise
  end.
Definition wlag (b : list xd) (x : wstate A) : Prop :=
  exists v, b = whist x ++ [v] /\
    match x with WSend _ t => t = (tags - 1)%nat | WWait _ => True | _ => False end.

Definition contents (b : list xd) (k : nat * nat) : list R :=
  match todo (fst k) b with Share f => f (snd k) | _ => [] end.

Definition mok (m : mstate A) (b : list xd) : Prop :=
  match m with
  | MAt hs | MBcast hs => hs = b
  | MDone hs a => hs = b /\ todo 0 b = Answer a
  | MThrew hs => hs = b /\ todo 0 b = Raise
  | MRecv hs got acc => hs = b /\ NoDup got /\ exists f, todo 0 b = Share f /\
      forall t, acc t =
        fold_left vadd (map (contents b) (filter (fun k => Nat.eqb (snd k) t) (rev got))) (f t)
  end.

Record Inv (c : config A) : Prop := mkInv {
  i_rounds : rounds (bc c);
  i_ms : mok (ms c) (bc c);
  i_ws : forall s, (1 <= s < w)%nat ->
    (whist (ws c s) = bc c /\ wcur s (ws c s)) \/ wlag (bc c) (ws c s);
  i_net : forall s t v, In (s, t, v) (net c) ->
    (1 <= s < w)%nat /\ postedw (bc c) (ws c s) t /\ (t < tags)%nat /\ ~ In (s, t) (got_of (ms c)) /\
    v = contents (bc c) (s, t);
  i_nodup : NoDup (map fst (net c));
  i_got : forall s t, In (s, t) (got_of (ms c)) ->
    (1 <= s < w)%nat /\ postedw (bc c) (ws c s) t /\ (t < tags)%nat;
  i_sent : forall s t, (1 <= s < w)%nat -> postedw (bc c) (ws c s) t ->
    In (s, t) (got_of (ms c)) \/ In (s, t) (map fst (net c)) }.

Lemma posted_hist b x t : postedw b x t -> whist x = b.
Proof. destruct x; cbn; tauto. Qed.
Lemma lag_not b x : wlag b x -> whist x <> b.
Proof.
  intros [v [E _]] H. rewrite H in E. apply (f_equal (@length xd)) in E.
  rewrite app_length in E. cbn in E. lia.
Qed.

Lemma inv_start : Inv (start A).
Proof.
  constructor; cbn; try tauto; try constructor.
Qed.

(** A worker moves from [x0] to [x], sending the messages [add]. *)
Lemma inv_worker m ws0 n b s x add :
  Inv (mkC m ws0 n b) -> (1 <= s < w)%nat ->
  ((whist x = b /\ wcur s x) \/ wlag b x) ->
  (forall t, postedw b (ws0 s) t -> postedw b x t) ->
  (forall t v, In (t, v) add -> postedw b x t /\ ~ postedw b (ws0 s) t /\ (t < tags)%nat /\
    v = contents b (s, t)) ->
  NoDup (map fst add) ->
  (forall t, postedw b x t -> postedw b (ws0 s) t \/ In t (map fst add)) ->
  Inv (mkC m (upd ws0 s x) (n ++ map (fun p => (s, fst p, snd p)) add) b).
Proof.
  intros [H1 H2 H3 H4 H5 H6 H7] Hs HX HP HA HD HS. cbn in *.
  assert (HU : forall s' t, postedw b (ws0 s') t -> postedw b (upd ws0 s x s') t).
  { intros s' t P. destruct (Nat.eq_dec s' s) as [->|N].
    - rewrite upd_same. auto.
    - now rewrite upd_other. }
  constructor; cbn.
  - assumption.
  - assumption.
  - intros s' Hs'. destruct (Nat.eq_dec s' s) as [->|N].
    + rewrite upd_same. exact HX.
    + rewrite upd_other by assumption. auto.
  - intros s' t v I. apply in_app_or in I. destruct I as [I|I].
    + destruct (H4 _ _ _ I) as (Q1 & Q2 & Q3 & Q4 & Q5). auto 6.
    + apply in_map_iff in I. destruct I as [[t0 v0] [E I]]. cbn in E. injection E as <- <- <-.
      destruct (HA _ _ I) as (P1 & P2 & P3 & P4). repeat split; try lia.
      * now rewrite upd_same.
      * intros G. apply P2. destruct (H6 _ _ G) as (_ & P & _). exact P.
      * assumption.
  - rewrite map_app, map_map. cbn.
    assert (E : map (fun p : nat * list R => (s, fst p)) add = map (pair s) (map fst add)) by now rewrite map_map.
    rewrite E. clear E.
    assert (ND : NoDup (map (pair s) (map fst add))).
    { apply FinFun.Injective_map_NoDup; [|assumption]. intros p q E. now injection E. }
    assert (DJ : forall k, In k (map fst n) -> ~ In k (map (pair s) (map fst add))).
    { intros k I J. apply in_map_iff in J. destruct J as [t [<- J]].
      apply in_map_iff in J. destruct J as [[t0 v0] [E J]]. cbn in E. subst t0.
      apply in_map_iff in I. destruct I as [[[s1 t1] v1] [E I]]. cbn in E. injection E as -> ->.
      destruct (H4 _ _ _ I) as (_ & P & _). destruct (HA _ _ J) as (_ & P' & _). auto. }
    clear - H5 ND DJ. induction (map fst n) as [|k l IH]; [assumption|].
    cbn. inversion H5 as [|? ? N1 N2]; subst. constructor.
    + intros I. apply in_app_or in I. destruct I as [I|I]; [auto|]. exact (DJ k (or_introl eq_refl) I).
    + apply IH; auto. intros k' I. apply DJ. now right.
  - intros s' t G. destruct (H6 _ _ G) as (Q1 & Q2 & Q3). auto.
  - intros s' t Hs' P. rewrite map_app, in_app_iff. destruct (Nat.eq_dec s' s) as [->|N].
    + rewrite upd_same in P. destruct (HS _ P) as [P'|I].
      * destruct (H7 _ _ Hs' P'); auto.
      * right. right. rewrite map_map. cbn. apply in_map_iff in I. destruct I as [p [<- I]].
        apply in_map_iff. exists p. auto.
    + rewrite upd_other in P by assumption. destruct (H7 _ _ Hs' P); auto.
Qed.

Lemma nodup_filter {B} (g : B -> bool) l : NoDup l -> NoDup (filter g l).
Proof. apply NoDup_filter. Qed.

(** When the table is full the sums are those of all processes. *)
Lemma full_value b got acc f :
  NoDup got -> complete w tags got = true ->
  (forall s t, In (s, t) got -> (1 <= s < w)%nat /\ (t < tags)%nat) ->
  (forall t, acc t =
     fold_left vadd (map (contents b) (filter (fun k => Nat.eqb (snd k) t) (rev got))) (f t)) ->
  todo 0 b = Share f ->
  value (map acc (seq 0 tags)) = round_value (fun p t => contents b (p, t)).
Proof.
  intros ND C G HA H0. unfold MpiSelSpec.round_value. f_equal. apply map_ext_in. intros t Ht. apply in_seq in Ht.
  rewrite HA. unfold contents at 3. cbn. rewrite H0.
  apply fold_perm.
  rewrite <- (map_map (fun s => (s, t)) (contents b)).
  apply Permutation_map. apply NoDup_Permutation.
  - apply nodup_filter. now apply NoDup_rev.
  - apply FinFun.Injective_map_NoDup; [|apply seq_NoDup]. intros p q E. now injection E.
  - rewrite complete_iff in C. intros [s t']. rewrite filter_In, <- in_rev, in_map_iff. cbn. split.
    + intros [I E]. apply Nat.eqb_eq in E. subst t'. exists s. split; [reflexivity|].
      apply in_seq. destruct (G _ _ I). lia.
    + intros [s' [E I]]. injection E as -> <-. apply in_seq in I.
      rewrite Nat.eqb_refl. split; [|reflexivity]. apply C; lia.
Qed.

Lemma inv_step c d : Inv c -> step c d -> Inv d.
Proof.
  intros I ST. destruct ST.
  - (* m_answer *) destruct I as [H1 H2 H3 H4 H5 H6 H7]. cbn in *. subst hs. constructor; cbn; auto.
  - destruct I as [H1 H2 H3 H4 H5 H6 H7]. cbn in *. subst hs. constructor; cbn; auto.
  - (* m_share *) destruct I as [H1 H2 H3 H4 H5 H6 H7]. cbn in *. subst hs. constructor; cbn; auto.
    split; [reflexivity|]. split; [constructor|]. exists f. auto.
  - (* m_recv *) destruct I as [H1 H2 H3 H4 H5 H6 H7]. cbn in *.
    destruct H2 as (-> & ND & f & F0 & HA).
    assert (IN : In (s, t, v) (l1 ++ (s, t, v) :: l2)) by (apply in_or_app; right; left; reflexivity).
    destruct (H4 _ _ _ IN) as (Q1 & Q2 & Q3 & Q4 & Q5).
    rewrite map_app in H5. cbn in H5. assert (H5' := NoDup_remove _ _ _ H5).
    rewrite <- map_app in H5'. destruct H5' as [H5' N5].
    constructor; cbn; auto.
    + split; [reflexivity|]. split; [now constructor|]. exists f. split; [assumption|].
      intros t'. rewrite filter_app, map_app, fold_left_app. cbn.
      unfold upd. destruct (Nat.eqb_spec t' t) as [->|N].
      * rewrite Nat.eqb_refl. cbn. rewrite <- HA. now rewrite Q5.
      * destruct (Nat.eqb_spec t t') as [E|_]; [congruence|]. cbn. apply HA.
    + intros s' t' v' I'. assert (I2 : In (s', t', v') (l1 ++ (s, t, v) :: l2)).
      { apply in_app_or in I'. apply in_or_app. destruct I'; [now left|right; now right]. }
      destruct (H4 _ _ _ I2) as (P1 & P2 & P3 & P4 & P5). repeat split; auto; try lia.
      intros [E|G]; [|auto]. injection E as -> ->. apply N5.
      apply in_map_iff. exists ((s', t'), v'). auto.
    + intros s' t' [E|G]; [injection E as <- <-; auto|auto].
    + intros s' t' Hs' P. destruct (H7 _ _ Hs' P) as [G|G]; [auto|].
      rewrite map_app in G. cbn in G. apply in_app_or in G. rewrite map_app, in_app_iff.
      destruct G as [G|[E|G]]; auto.
  - (* m_post *) destruct I as [H1 H2 H3 H4 H5 H6 H7]. cbn in *.
    destruct H2 as (-> & ND & f & F0 & HA).
    assert (C := proj1 (complete_iff _ _ _) H).
    assert (PW : forall s, (1 <= s < w)%nat ->
      (ws0 s = WSend b (tags - 1) \/ ws0 s = WWait b) /\ exists g, todo s b = Share g).
    { intros s Hs. assert (G := C s (tags - 1)%nat Hs ltac:(lia)).
      destruct (H6 _ _ G) as (_ & P & _).
      destruct (H3 s Hs) as [[E W]|W].
      - destruct (ws0 s) as [hs|hs t|hs|hs a|hs]; cbn in P, E, W; try contradiction.
        + destruct P as [-> P]. destruct W as [W1 W2].
          replace t with (tags - 1)%nat by lia. auto.
        + destruct P as [-> P]. auto.
      - exfalso. apply (lag_not _ _ W). now apply posted_hist in P. }
    assert (NE : n = []).
    { destruct n as [|[[s t] v0] n]; [reflexivity|exfalso].
      destruct (H4 s t v0 (or_introl eq_refl)) as (Q1 & Q2 & Q3 & Q4 & _). auto. }
    assert (EV : v = round_value (fun p t => contents b (p, t))).
    { unfold v. apply (full_value b got acc f); auto. intros s t G. destruct (H6 _ _ G) as (? & ? & ?). auto. }
    assert (NP : forall s t, (1 <= s < w)%nat -> ~ postedw (b ++ [v]) (ws0 s) t).
    { intros s t Hs P. apply posted_hist in P. destruct (PW s Hs) as [[E|E] _]; rewrite E in P; cbn in P;
        apply (f_equal (@length xd)) in P; rewrite app_length in P; cbn in P; lia. }
    subst n. constructor; cbn.
    + rewrite EV. apply (r_next A w tags todo value b); auto. intros p Hp.
      unfold contents. cbn. destruct (Nat.eq_dec p 0) as [->|N].
      * now rewrite F0.
      * destruct (PW p ltac:(lia)) as [_ [g E]]. now rewrite E.
    + reflexivity.
    + intros s Hs. right. exists v. destruct (PW s Hs) as [[E|E] _]; rewrite E; cbn; auto.
    + tauto.
    + constructor.
    + tauto.
    + intros s t Hs P. exfalso. exact (NP s t Hs P).
  - (* m_go *) destruct I as [H1 H2 H3 H4 H5 H6 H7]. cbn in *. subst hs. constructor; cbn; auto.
  - (* w_answer *)
    assert (E : n = n ++ map (fun p => (s, fst p, snd p)) (@nil (nat * list R))) by (cbn; now rewrite app_nil_r).
    rewrite E. assert (HB := i_ws _ I s H). cbn in HB. rewrite H0 in HB.
    destruct HB as [[B _]|[v [_ []]]]. cbn in B. subst hs.
    apply inv_worker; cbn; auto; try tauto; try (intros ?; rewrite H0; cbn; tauto). constructor.
  - (* w_raise *)
    assert (E : n = n ++ map (fun p => (s, fst p, snd p)) (@nil (nat * list R))) by (cbn; now rewrite app_nil_r).
    rewrite E. assert (HB := i_ws _ I s H). cbn in HB. rewrite H0 in HB.
    destruct HB as [[B _]|[v [_ []]]]. cbn in B. subst hs.
    apply inv_worker; cbn; auto; try tauto; try (intros ?; rewrite H0; cbn; tauto). constructor.
  - (* w_share *)
    assert (HB := i_ws _ I s H). cbn in HB. rewrite H0 in HB.
    destruct HB as [[B _]|[v [_ []]]]. cbn in B. subst hs.
    apply (inv_worker m ws0 n b s (WSend b 0) [(0%nat, f 0%nat)]); cbn; auto.
    + left. split; [reflexivity|]. eauto.
    + intros t. rewrite H0. cbn. tauto.
    + intros t v [E|[]]. injection E as <- <-. rewrite H0. cbn. repeat split; auto.
      unfold contents. cbn. now rewrite H1.
    + constructor; [intros []|constructor].
    + intros t [_ L]. right. left. lia.
  - (* w_next *)
    assert (HB := i_ws _ I s H). cbn in HB. rewrite H0 in HB.
    destruct HB as [[B _]|[v [_ E]]]; [|cbn in E; lia]. cbn in B. subst hs.
    apply (inv_worker m ws0 n b s (WSend b (S t)) [(S t, f (S t))]); cbn; auto.
    + left. split; [reflexivity|]. eauto.
    + intros t'. rewrite H0. cbn. intros [_ L]. auto.
    + intros t' v [E|[]]. injection E as <- <-. rewrite H0. cbn. repeat split; auto; try lia.
      unfold contents. cbn. now rewrite H3.
    + constructor; [intros []|constructor].
    + intros t' [_ L]. rewrite H0. cbn. destruct (Nat.eq_dec t' (S t)) as [->|N]; [auto|left]. split; [reflexivity|lia].
  - (* w_last *)
    assert (E : n = n ++ map (fun p => (s, fst p, snd p)) (@nil (nat * list R))) by (cbn; now rewrite app_nil_r).
    rewrite E. assert (HB := i_ws _ I s H). cbn in HB. rewrite H0 in HB.
    destruct HB as [[B [W1 W2]]|[v [B W]]]; cbn in B.
    + subst hs. apply inv_worker; cbn; auto; try tauto.
      * intros t'. rewrite H0. cbn. intros [_ L]. split; [reflexivity|lia].
      * constructor.
      * intros t' [_ L]. rewrite H0. cbn. left. split; [reflexivity|lia].
    + assert (NB : hs <> b).
      { intros ->. apply (f_equal (@length xd)) in B. rewrite app_length in B. cbn in B. lia. }
      apply inv_worker; cbn; auto; try tauto; try (intros ?; rewrite H0; cbn; tauto).
      * right. exists v. auto.
      * constructor.
  - (* w_bcast *)
    assert (E : n = n ++ map (fun p => (s, fst p, snd p)) (@nil (nat * list R))) by (cbn; now rewrite app_nil_r).
    rewrite E. assert (HB := i_ws _ I s H). cbn in HB. rewrite H0 in HB.
    destruct HB as [[B _]|[v0 [B _]]]; cbn in B.
    + subst hs. exfalso. assert (L : (length b < length b)%nat) by (apply nth_error_Some; congruence). lia.
    + assert (v0 = v).
      { rewrite B, nth_error_app2, Nat.sub_diag in H1 by lia. cbn in H1. now injection H1. }
      subst v0.
      assert (NB : hs <> b).
      { intros ->. apply (f_equal (@length xd)) in B. rewrite app_length in B. cbn in B. lia. }
      apply inv_worker; cbn; auto; try tauto; try (intros ?; rewrite H0; cbn; tauto). constructor.
Qed.

Lemma inv_moves k c d : moves k c d -> Inv c -> Inv d.
Proof. induction 1; intros; eauto using inv_step. Qed.
End Sys.
