(** Proofs about distributed selection (C165): where the processes come to rest, and that
    they do when the rounds end. *)
From Coq Require Import Reals Bool List Arith Lia Lra Permutation.
From Verif Require Import XReal Sums MpiModel MpiSelModel MpiSelSpec MpiSelProofs.
Import ListNotations.
Local Open Scope R_scope.

Lemma sum_upd {B} (g : B -> nat) (f : nat -> B) s x l : NoDup l -> In s l ->
  (list_sum (map (fun i => g (upd f s x i)) l) + g (f s) =
   list_sum (map (fun i => g (f i)) l) + g x)%nat.
Proof.
  induction l as [|i l IH]; intros ND I; [destruct I|].
  inversion ND as [|? ? N1 N2]; subst. cbn [map list_sum fold_right]. destruct I as [->|I].
  - rewrite upd_same.
    assert (E : map (fun i => g (upd f s x i)) l = map (fun i => g (f i)) l).
    { apply map_ext_in. intros j J. rewrite upd_other; [reflexivity|]. intros ->. auto. }
    unfold list_sum in *. cbn. rewrite E. lia.
  - assert (i <> s) by (intros ->; auto). rewrite upd_other by assumption.
    specialize (IH N2 I). unfold list_sum in *. cbn. lia.
Qed.

Section Sys.
Variable A : Type.
Variables w tags : nat.
Variable eager : bool.
Variable todo : nat -> list xd -> action A.
Variable value : list (list R) -> xd.
Hypothesis Htags : (0 < tags)%nat.
Hypothesis Hw : (0 < w)%nat.

Notation rounds := (rounds A w tags todo value).
Notation step := (step A w tags eager todo value).
Notation moves := (moves A w tags eager todo value).
Notation Inv := (Inv A w tags todo value).

(** ** At rest *)
Lemma rest_workers c s : Inv c -> at_rest A w tags todo value eager c -> (1 <= s < w)%nat ->
  whist (ws c s) = bc c /\
  match ws c s with
  | WAt _ => False
  | WSend hs t => (t < tags)%nat /\ (exists f, todo s hs = Share f) /\ net c <> []
  | WWait hs => exists f, todo s hs = Share f
  | WDone hs a => todo s hs = Answer a
  | WThrew hs => todo s hs = Raise
  end.
Proof.
  intros I RT Hs. destruct c as [m ws0 n b]. assert (HB := i_ws _ _ _ _ _ _ I s Hs). cbn in *.
  assert (NM : forall hs t, ws0 s = WSend hs t -> (eager = true \/ has_msg s t n = false) -> (exists f, todo s hs = Share f) \/ (tags <= S t)%nat -> False).
  { intros hs t E ME F. destruct (le_lt_dec tags (S t)) as [L|L].
    - apply (RT _ (w_last A w tags eager todo value s hs t m ws0 n b Hs E ME L)).
    - destruct F as [[f F]|F]; [|lia].
      apply (RT _ (w_next A w tags eager todo value s hs t f m ws0 n b Hs E ME L F)). }
  destruct HB as [[B W]|[v [B W]]].
  - split; [assumption|]. destruct (ws0 s) as [hs|hs t|hs|hs a|hs] eqn:E; cbn in *; auto.
    + destruct (todo s hs) as [a| |f] eqn:T.
      * exact (RT _ (w_answer A w tags eager todo value s hs a m ws0 n b Hs E T)).
      * exact (RT _ (w_raise A w tags eager todo value s hs m ws0 n b Hs E T)).
      * exact (RT _ (w_share A w tags eager todo value s hs f m ws0 n b Hs E T)).
    + destruct W as [W1 W2]. split; [assumption|]. split; [assumption|].
      intros ->. apply (NM hs t eq_refl); auto.
  - exfalso. assert (LG : wlag A tags b (ws0 s)) by (exists v; auto).
    destruct (ws0 s) as [hs|hs t|hs|hs a|hs] eqn:E; cbn in *; try contradiction.
    + subst t. apply (NM hs _ eq_refl); [|right; lia]. right.
      destruct (has_msg s (tags - 1) n) eqn:M; [|reflexivity]. exfalso.
      apply has_msg_iff, in_map_iff in M. destruct M as [[[s' t'] v'] [E' M]]. cbn in E'. injection E' as -> ->.
      destruct (i_net _ _ _ _ _ _ I _ _ _ M) as (_ & P & _). cbn in P. rewrite E in P.
      apply (lag_not A w tags Htags Hw b _ LG). cbn. now destruct P.
    + assert (NE : nth_error b (length hs) = Some v).
      { rewrite B, nth_error_app2, Nat.sub_diag by lia. reflexivity. }
      exact (RT _ (w_bcast A w tags eager todo value s hs v m ws0 n b Hs E NE)).
Qed.

Lemma rest_main c : Inv c -> at_rest A w tags todo value eager c ->
  (exists p, (p < w)%nat /\ forall f, todo p (bc c) <> Share f) /\
  (forall p, (p < w)%nat -> settled A todo c p).
Proof.
  intros I RT. assert (RW := fun s => rest_workers c s I RT).
  destruct c as [m ws0 n b]. cbn in *.
  (* the master *)
  assert (M : match m with
              | MAt _ | MBcast _ => False
              | MRecv hs got _ => n = [] /\ complete w tags got = false
              | _ => True end).
  { assert (MO := i_ms _ _ _ _ _ _ I). cbn in MO.
    destruct m as [hs|hs got acc|hs|hs a|hs]; auto.
    - destruct (todo 0 hs) as [a| |f] eqn:T.
      + exact (RT _ (m_answer A w tags eager todo value hs a ws0 n b T)).
      + exact (RT _ (m_raise A w tags eager todo value hs ws0 n b T)).
      + exact (RT _ (m_share A w tags eager todo value hs f ws0 n b T)).
    - destruct (complete w tags got) eqn:C.
      + exfalso. exact (RT _ (m_post A w tags eager todo value hs got acc ws0 n b C)).
      + split; [|reflexivity]. destruct n as [|[[s t] v] n]; [reflexivity|exfalso].
        exact (RT _ (m_recv A w tags eager todo value hs got acc ws0 [] s t v n b C)).
    - cbn in MO. subst hs. apply (RT _ (m_go A w tags eager todo value b ws0 n b
        (or_intror (fun s Hs => Nat.eq_le_incl _ _ (f_equal (@length xd) (eq_sym (proj1 (RW s Hs)))))))). }
  split.
  - (* someone does not share *)
    assert (D : (exists p, (p < w)%nat /\ forall f, todo p b <> Share f) \/
                (forall p, (p < w)%nat -> exists f, todo p b = Share f)).
    { clear. induction w as [|k IH].
      - right. intros p Hp. lia.
      - destruct IH as [[p [Hp IH]]|IH].
        + left. exists p. split; [lia|assumption].
        + destruct (todo k b) as [a| |f] eqn:T.
          * left. exists k. split; [lia|]. intros f. congruence.
          * left. exists k. split; [lia|]. intros f. congruence.
          * right. intros p Hp. destruct (Nat.eq_dec p k) as [->|N]; [eauto|apply IH; lia]. }
    destruct D as [D|D]; [exact D|exfalso].
    assert (MO := i_ms _ _ _ _ _ _ I). cbn in MO.
    destruct (D 0%nat Hw) as [f0 F0].
    destruct m as [hs|hs got acc|hs|hs a|hs]; cbn in *; try contradiction.
    + destruct M as [-> C]. enough (C' : complete w tags got = true) by congruence.
      apply complete_iff. intros s t Hs Ht.
      assert (P : postedw A tags b (ws0 s) t).
      { destruct (RW s Hs) as [E W]. destruct (D s ltac:(lia)) as [f F].
        destruct (ws0 s) as [hs'|hs' t'|hs'|hs' a|hs']; cbn in *; subst; try congruence; try contradiction.
        - destruct W as (_ & _ & W). congruence.
        - auto. }
      destruct (i_sent _ _ _ _ _ _ I s t Hs P) as [G|G]; [exact G|destruct G].
    + destruct MO as [_ MO]. congruence.
    + destruct MO as [_ MO]. congruence.
  - intros p Hp. assert (MO := i_ms _ _ _ _ _ _ I). cbn in MO. unfold settled, returned, threw. cbn.
    destruct p as [|p].
    + destruct m as [hs|hs got acc|hs|hs a|hs]; cbn in *; try contradiction.
      * destruct MO as (_ & _ & f & F & _). rewrite F.
        split; [intros (? & ? & E)|intros (? & E)]; discriminate.
      * destruct MO as [-> F]. now rewrite F.
      * destruct MO as [-> F]. now rewrite F.
    + destruct (RW (S p) ltac:(lia)) as [E W].
      destruct (ws0 (S p)) as [hs'|hs' t'|hs'|hs' a|hs']; cbn in *; subst; try contradiction.
      * destruct W as (_ & [f F] & _). rewrite F.
        split; [intros (? & ? & E)|intros (? & E)]; discriminate.
      * destruct W as [f F]. rewrite F.
        split; [intros (? & ? & E)|intros (? & E)]; discriminate.
      * now rewrite W.
      * now rewrite W.
Qed.

(** ** The processes come to rest *)
Variable L : nat.
Hypothesis HL : forall hs, rounds hs -> (length hs <= L)%nat.

Definition potm (m : mstate A) : nat :=
  match m with
  | MAt hs => (L + 1 - length hs) * ((w - 1) * tags + 3) + 1
  | MRecv hs got _ => (L + 1 - length hs) * ((w - 1) * tags + 3) - length got
  | MBcast hs => (L + 1 - length hs) * ((w - 1) * tags + 3) + 2
  | MDone hs _ | MThrew hs => (L + 1 - length hs) * ((w - 1) * tags + 3)
  end.
Definition potw (x : wstate A) : nat :=
  match x with
  | WAt hs => (L + 1 - length hs) * (tags + 2) + 1
  | WSend hs t => (L + 1 - length hs) * (tags + 2) - t
  | WWait hs => (L + 1 - length hs) * (tags + 2) - tags
  | WDone hs _ | WThrew hs => (L + 1 - length hs) * (tags + 2)
  end.
Definition pot (c : config A) : nat :=
  (potm (ms c) + list_sum (map (fun s => potw (ws c s)) (seq 1 (w - 1))))%nat.

Lemma pot_worker m ws0 n n' b b' s x : (1 <= s < w)%nat -> (potw x < potw (ws0 s))%nat ->
  (pot (mkC m (upd ws0 s x) n' b') < pot (mkC m ws0 n b))%nat.
Proof.
  intros Hs H. unfold pot. cbn.
  assert (E := sum_upd potw ws0 s x (seq 1 (w - 1)) (seq_NoDup _ _) ltac:(apply in_seq; lia)).
  lia.
Qed.

Lemma len_le c s : Inv c -> (1 <= s < w)%nat -> (length (whist (ws c s)) <= L)%nat.
Proof.
  intros I Hs. assert (B := HL _ (i_rounds _ _ _ _ _ _ I)).
  destruct (i_ws _ _ _ _ _ _ I s Hs) as [[E _]|[v [E _]]].
  - now rewrite E.
  - rewrite E, app_length in B. lia.
Qed.

Lemma pot_step c d : Inv c -> step c d -> (pot d < pot c)%nat.
Proof.
  intros I ST. assert (ID := inv_step A w tags eager todo value Htags Hw c d I ST).
  assert (LW := fun s => len_le c s I). assert (LB := HL _ (i_rounds _ _ _ _ _ _ I)).
  assert (LD := HL _ (i_rounds _ _ _ _ _ _ ID)).
  destruct ST; cbn in LW, LB, LD.
  - unfold pot; cbn -[Nat.mul Nat.add Nat.sub list_sum]. lia.
  - unfold pot; cbn -[Nat.mul Nat.add Nat.sub list_sum]. lia.
  - unfold pot; cbn -[Nat.mul Nat.add Nat.sub list_sum]. rewrite Nat.sub_0_r. lia.
  - (* m_recv *)
    assert (MO := i_ms _ _ _ _ _ _ ID). cbn in MO. destruct MO as (-> & ND & _).
    assert (G : (length ((s, t) :: got) <= (w - 1) * tags)%nat).
    { assert (EP : ((w - 1) * tags)%nat = length (list_prod (seq 1 (w - 1)) (seq 0 tags)))
        by now rewrite prod_length, !seq_length.
      rewrite EP. apply NoDup_incl_length; [assumption|]. intros [s' t'] G.
      destruct (i_got _ _ _ _ _ _ ID s' t' G) as (Q1 & _ & Q2).
      apply in_prod; apply in_seq; lia. }
    unfold pot; cbn -[Nat.mul Nat.add Nat.sub list_sum] in *.
    assert (((w - 1) * tags + 3 <= (L + 1 - length b) * ((w - 1) * tags + 3))%nat) by nia.
    lia.
  - (* m_post *)
    assert (MO := i_ms _ _ _ _ _ _ I). cbn in MO. destruct MO as (-> & ND & _).
    assert (G : (length got <= (w - 1) * tags)%nat).
    { assert (EP : ((w - 1) * tags)%nat = length (list_prod (seq 1 (w - 1)) (seq 0 tags)))
        by now rewrite prod_length, !seq_length.
      rewrite EP. apply NoDup_incl_length; [assumption|]. intros [s' t'] G.
      destruct (i_got _ _ _ _ _ _ I s' t' G) as (Q1 & _ & Q2).
      apply in_prod; apply in_seq; lia. }
    unfold pot; cbn -[Nat.mul Nat.add Nat.sub list_sum] in *. rewrite app_length in *.
    cbn -[Nat.mul Nat.add Nat.sub list_sum] in *.
    replace (L + 1 - length b)%nat with (S (L + 1 - (length b + 1)))%nat by lia.
    rewrite Nat.mul_succ_l. lia.
  - unfold pot; cbn -[Nat.mul Nat.add Nat.sub list_sum]. lia.
  - apply pot_worker; [assumption|]. rewrite H0. cbn -[Nat.mul Nat.add Nat.sub]. lia.
  - apply pot_worker; [assumption|]. rewrite H0. cbn -[Nat.mul Nat.add Nat.sub]. lia.
  - apply pot_worker; [assumption|]. rewrite H0. cbn -[Nat.mul Nat.add Nat.sub]. rewrite Nat.sub_0_r. lia.
  - apply pot_worker; [assumption|]. specialize (LW s H). rewrite H0 in *. cbn -[Nat.mul Nat.add Nat.sub] in *.
    assert ((tags + 2 <= (L + 1 - length hs) * (tags + 2))%nat) by nia. lia.
  - apply pot_worker; [assumption|]. specialize (LW s H).
    assert (WO := i_ws _ _ _ _ _ _ I s H). cbn in WO. rewrite H0 in *. cbn -[Nat.mul Nat.add Nat.sub] in *.
    assert ((tags + 2 <= (L + 1 - length hs) * (tags + 2))%nat) by nia.
    assert (t < tags)%nat.
    { destruct WO as [[_ [WO _]]|[v [_ WO]]]; cbn in WO; lia. }
    lia.
  - apply pot_worker; [assumption|]. specialize (LW s H). rewrite H0 in *. cbn -[Nat.mul Nat.add Nat.sub] in *.
    rewrite app_length. cbn -[Nat.mul Nat.add Nat.sub].
    replace (L + 1 - length hs)%nat with (S (L + 1 - (length hs + 1)))%nat by lia.
    rewrite Nat.mul_succ_l. lia.
Qed.

Lemma pot_moves k c d : moves k c d -> Inv c -> (k + pot d <= pot c)%nat.
Proof.
  induction 1 as [|k c d e M IH ST]; intros I; [lia|].
  assert (P := pot_step _ _ (inv_moves A w tags eager todo value Htags Hw _ _ _ M I) ST).
  specialize (IH I). lia.
Qed.

Lemma pot_start : pot (start A) = ((L + 1) * ((w - 1) * tags + 3) + 1 + (w - 1) * ((L + 1) * (tags + 2) + 1))%nat.
Proof.
  unfold pot, start. cbn -[Nat.mul Nat.add Nat.sub]. rewrite Nat.sub_0_r. f_equal.
  generalize ((L + 1) * (tags + 2) + 1)%nat as z. intros z. generalize 1%nat at 1.
  induction (w - 1)%nat as [|k IH]; intros o; [reflexivity|]. cbn. f_equal. apply IH.
Qed.

Lemma moves_bound k d : moves k (start A) d ->
  (k <= (L + 1) * ((w - 1) * (2 * tags + 2) + 3) + w)%nat.
Proof.
  intros M. assert (B := pot_moves _ _ _ M (inv_start A w tags todo value)).
  rewrite pot_start in B. nia.
Qed.
End Sys.
