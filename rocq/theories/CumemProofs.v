(** Proofs about CumemModel.v. *)
From Coq Require Import Reals Bool List Arith Lia.
From Verif Require Import Outcome CumemModel CumemSpec.
Import ListNotations.
Local Open Scope R_scope.

Section Lists.
Context {A : Type}.
Implicit Types (l : list A).
Lemma upd_length l : forall i x, length (upd l i x) = length l.
Proof. induction l; intros [|i] x; cbn; auto. Qed.
Lemma upd_same l : forall i x, (i < length l)%nat -> nth_error (upd l i x) i = Some x.
Proof. induction l; intros [|i] x H; cbn in *; try lia; auto. apply IHl. lia. Qed.
Lemma upd_other l : forall i j x, i <> j -> nth_error (upd l i x) j = nth_error l j.
Proof. induction l; intros [|i] [|j] x H; cbn; auto; try congruence. Qed.
Lemma app_last l x : nth_error (l ++ [x]) (length l) = Some x.
Proof. rewrite nth_error_app2 by lia. rewrite Nat.sub_diag. reflexivity. Qed.
Lemma app_old l x i v : nth_error l i = Some v -> nth_error (l ++ [x]) i = Some v.
Proof. intros H. rewrite nth_error_app1; auto. apply nth_error_Some. congruence. Qed.
Lemma app_inv l x i v : nth_error (l ++ [x]) i = Some v -> nth_error l i = Some v \/ (i = length l /\ v = x).
Proof.
  intros H. destruct (Nat.lt_ge_cases i (length l)) as [L|L].
  - rewrite nth_error_app1 in H by auto. auto.
  - rewrite nth_error_app2 in H by auto. destruct (i - length l)%nat eqn:E; cbn in H; [|destruct n; discriminate].
    inversion H. right. split; [lia|auto].
Qed.
Lemma upd_last l x z : upd (l ++ [x]) (length l) z = l ++ [z].
Proof. induction l; cbn; f_equal; auto. Qed.
Lemma some_lt l i v : nth_error l i = Some v -> (i < length l)%nat.
Proof. intros H. apply nth_error_Some. congruence. Qed.
End Lists.

Record Inv (s : state) : Prop := mkInv {
  i_own : forall i o, alive s i o -> m_own o = true -> exists a v, m_ptr o = Some a /\ nth_error (heap s) a = Some (Some v) /\ length v = size o;
  i_uniq : forall i j o p a, alive s i o -> alive s j p -> m_own o = true -> m_own p = true -> m_ptr o = Some a -> m_ptr p = Some a -> i = j;
  i_leak : forall a v, nth_error (heap s) a = Some (Some v) -> exists i o, alive s i o /\ m_own o = true /\ m_ptr o = Some a
}.

(** The new owner of new memory. *)
Lemma inv_new s r c v : Inv s -> length v = (r * c)%nat ->
  Inv (mkSt (heap s ++ [Some v]) (objs s ++ [Some (mkObj r c (Some (length (heap s))) true)])).
Proof.
  intros I L. constructor; unfold alive; cbn.
  - intros i o H O. apply app_inv in H. destruct H as [H|[-> H]].
    + destruct (i_own s I i o H O) as (a & w & P & Q & Z). exists a, w. split; [auto|]. split; [apply app_old; auto|auto].
    + inversion H; subst. exists (length (heap s)), v. split; [reflexivity|]. split; [apply app_last|]. exact L.
  - intros i j o p a H1 H2 O1 O2 P1 P2. apply app_inv in H1. apply app_inv in H2.
    destruct H1 as [H1|[-> H1]], H2 as [H2|[-> H2]]; auto.
    + apply (i_uniq s I i j o p a); auto.
    + inversion H2; subst. cbn in P2. inversion P2; subst. destruct (i_own s I i o H1 O1) as (b & w & P & Q & Z).
      rewrite P in P1. inversion P1; subst. apply some_lt in Q. lia.
    + inversion H1; subst. cbn in P1. inversion P1; subst. destruct (i_own s I j p H2 O2) as (b & w & P & Q & Z).
      rewrite P in P2. inversion P2; subst. apply some_lt in Q. lia.
  - intros a w H. apply app_inv in H. destruct H as [H|[-> H]].
    + destruct (i_leak s I a w H) as (i & o & X & Y & Z). exists i, o. split; [apply app_old; exact X|auto].
    + exists (length (objs s)). eexists. split; [apply app_last|]. auto.
Qed.

(** A new object without memory of its own. *)
Lemma inv_add s o : Inv s -> m_own o = false -> Inv (mkSt (heap s) (objs s ++ [Some o])).
Proof.
  intros I F. constructor; unfold alive; cbn.
  - intros i p H O. apply app_inv in H. destruct H as [H|[_ H]]; [apply (i_own s I i p H O)|]. inversion H; subst. congruence.
  - intros i j p q a H1 H2 O1 O2. apply app_inv in H1. apply app_inv in H2.
    destruct H1 as [H1|[_ H1]]; [|inversion H1; subst; congruence]. destruct H2 as [H2|[_ H2]]; [|inversion H2; subst; congruence].
    apply (i_uniq s I i j p q a); auto.
  - intros a w H. destruct (i_leak s I a w H) as (i & p & X & Y & Z). exists i, p. split; [apply app_old; exact X|auto].
Qed.

(** An owner whose memory is replaced. *)
Lemma inv_replace s i o a r c v : Inv s -> alive s i o -> m_own o = true -> m_ptr o = Some a -> length v = (r * c)%nat ->
  Inv (mkSt (upd (heap s) a None ++ [Some v]) (upd (objs s) i (Some (mkObj r c (Some (length (heap s))) true)))).
Proof.
  intros I A O P L. assert (Li := some_lt _ _ _ A).
  destruct (i_own s I i o A O) as (a' & w & P' & Q & _). rewrite P in P'. inversion P'; subst a'. assert (La := some_lt _ _ _ Q).
  constructor; unfold alive; cbn.
  - intros k p H O'. destruct (Nat.eq_dec i k) as [<-|N].
    + rewrite upd_same in H by auto. inversion H; subst. exists (length (heap s)), v. split; [reflexivity|].
      split; [|exact L]. rewrite <- (upd_length (heap s) a None) at 1. apply app_last.
    + rewrite upd_other in H by auto. destruct (i_own s I k p H O') as (b & u & X & Y & Z). exists b, u. split; [auto|]. split; [|auto].
      apply app_old. rewrite upd_other; auto. intros ->. apply N. apply (i_uniq s I i k o p b); auto.
  - intros k l p q b H1 H2 O1 O2 P1 P2. destruct (Nat.eq_dec i k) as [<-|N1], (Nat.eq_dec i l) as [<-|N2]; auto.
    + rewrite upd_same in H1 by auto. rewrite upd_other in H2 by auto. inversion H1; subst. cbn in P1. inversion P1; subst.
      destruct (i_own s I l q H2 O2) as (b & u & X & Y & Z). rewrite X in P2. inversion P2; subst. apply some_lt in Y. lia.
    + rewrite upd_same in H2 by auto. rewrite upd_other in H1 by auto. inversion H2; subst. cbn in P2. inversion P2; subst.
      destruct (i_own s I k p H1 O1) as (b & u & X & Y & Z). rewrite X in P1. inversion P1; subst. apply some_lt in Y. lia.
    + rewrite upd_other in H1, H2 by auto. apply (i_uniq s I k l p q b); auto.
  - intros b u H. apply app_inv in H. destruct H as [H|[-> H]].
    + destruct (Nat.eq_dec a b) as [<-|N]; [rewrite upd_same in H by auto; discriminate|].
      rewrite upd_other in H by auto. destruct (i_leak s I b u H) as (k & p & X & Y & Z).
      exists k, p. split; [|auto]. rewrite upd_other; auto. intros <-. unfold alive in A, X. rewrite A in X. inversion X; subst. congruence.
    + exists i. eexists. split; [apply upd_same; auto|]. cbn. rewrite upd_length. auto.
Qed.

(** Ownership handed over to a new object. *)
Lemma inv_move s j o : Inv s -> alive s j o -> m_own o = true ->
  Inv (mkSt (heap s) (upd (objs s) j (Some (mkObj (m_rows o) (m_cols o) (m_ptr o) false)) ++ [Some (mkObj (m_rows o) (m_cols o) (m_ptr o) true)])).
Proof.
  intros I A O. assert (Lj := some_lt _ _ _ A).
  assert (Old : forall k p, nth_error (upd (objs s) j (Some (mkObj (m_rows o) (m_cols o) (m_ptr o) false))) k = Some (Some p) -> m_own p = true ->
     k <> j /\ alive s k p).
  { intros k p H O'. destruct (Nat.eq_dec j k) as [<-|N].
    - rewrite upd_same in H by auto. inversion H; subst. discriminate.
    - rewrite upd_other in H by auto. auto. }
  constructor; unfold alive; cbn.
  - intros k p H O'. apply app_inv in H. destruct H as [H|[_ H]].
    + destruct (Old k p H O') as [_ H']. apply (i_own s I k p H' O').
    + inversion H; subst. apply (i_own s I j o A O).
  - intros k l p q a H1 H2 O1 O2 P1 P2. apply app_inv in H1. apply app_inv in H2.
    destruct H1 as [H1|[-> H1]], H2 as [H2|[-> H2]]; auto.
    + destruct (Old k p H1 O1), (Old l q H2 O2). apply (i_uniq s I k l p q a); auto.
    + inversion H2; subst. cbn in P2. destruct (Old k p H1 O1) as [N H]. exfalso. apply N. apply (i_uniq s I k j p o a); auto.
    + inversion H1; subst. cbn in P1. destruct (Old l q H2 O2) as [N H]. exfalso. apply N. apply (i_uniq s I l j q o a); auto.
  - intros a v H. destruct (i_leak s I a v H) as (k & p & X & Y & Z). destruct (Nat.eq_dec j k) as [<-|N].
    + unfold alive in A, X. rewrite A in X. inversion X; subst. exists (length (objs s)). eexists.
      split; [rewrite <- (upd_length (objs s) j (Some (mkObj (m_rows p) (m_cols p) (m_ptr p) false))); apply app_last|]. auto.
    + exists k, p. split; [apply app_old; rewrite upd_other; auto|auto].
Qed.

(** ... or to an object that owns nothing. *)
Lemma inv_move_assign s i j l o : Inv s -> i <> j -> alive s i l -> m_own l = false -> alive s j o -> m_own o = true ->
  Inv (mkSt (heap s) (upd (upd (objs s) i (Some (mkObj (m_rows o) (m_cols o) (m_ptr o) true))) j (Some (mkObj (m_rows o) (m_cols o) (m_ptr o) false)))).
Proof.
  intros I N A F B O. assert (Li := some_lt _ _ _ A). assert (Lj := some_lt _ _ _ B).
  set (os := upd (upd (objs s) i (Some (mkObj (m_rows o) (m_cols o) (m_ptr o) true))) j (Some (mkObj (m_rows o) (m_cols o) (m_ptr o) false))).
  assert (Gi : nth_error os i = Some (Some (mkObj (m_rows o) (m_cols o) (m_ptr o) true))).
  { unfold os. rewrite upd_other by auto. apply upd_same; auto. }
  assert (Gj : nth_error os j = Some (Some (mkObj (m_rows o) (m_cols o) (m_ptr o) false))).
  { unfold os. apply upd_same. rewrite upd_length. auto. }
  assert (Gk : forall k, k <> i -> k <> j -> nth_error os k = nth_error (objs s) k).
  { intros k K1 K2. unfold os. rewrite !upd_other by auto. reflexivity. }
  assert (Old : forall k p, nth_error os k = Some (Some p) -> m_own p = true -> exists k', k' = (if Nat.eq_dec k i then j else k) /\
     exists p', alive s k' p' /\ m_own p' = true /\ m_ptr p' = m_ptr p /\ size p' = size p).
  { intros k p H O'. exists (if Nat.eq_dec k i then j else k). split; [reflexivity|]. destruct (Nat.eq_dec k i) as [->|K1].
    - rewrite Gi in H. inversion H; subst. exists o. auto.
    - destruct (Nat.eq_dec k j) as [->|K2]; [rewrite Gj in H; inversion H; subst; discriminate|].
      rewrite Gk in H by auto. exists p. auto. }
  constructor; unfold alive; cbn [heap objs].
  - intros k p H O'. destruct (Old k p H O') as (k' & _ & p' & X & Y & Z & S). destruct (i_own s I k' p' X Y) as (a & v & E1 & E2 & E3).
    exists a, v. rewrite <- Z, <- S. auto.
  - intros k m p q a H1 H2 O1 O2 P1 P2.
    destruct (Old k p H1 O1) as (k' & E1 & p' & X1 & Y1 & Z1 & _). destruct (Old m q H2 O2) as (m' & E2 & q' & X2 & Y2 & Z2 & _).
    assert (E : k' = m') by (apply (i_uniq s I k' m' p' q' a); congruence).
    destruct (Nat.eq_dec k i), (Nat.eq_dec m i); try congruence.
    + subst. rewrite Gj in H2. inversion H2; subst. discriminate.
    + subst. rewrite Gj in H1. inversion H1; subst. discriminate.
  - intros a v H. destruct (i_leak s I a v H) as (k & p & X & Y & Z). destruct (Nat.eq_dec k j) as [->|K].
    + unfold alive in X, B. rewrite B in X. inversion X; subst. exists i. eexists. split; [exact Gi|]. auto.
    + exists k, p. split; [rewrite Gk; auto|auto]. intros ->. unfold alive in X, A. rewrite A in X. inversion X; subst. congruence.
Qed.

Lemma inv_destroy_owner s i o a : Inv s -> alive s i o -> m_own o = true -> m_ptr o = Some a ->
  Inv (mkSt (upd (heap s) a None) (upd (objs s) i None)).
Proof.
  intros I A O P. assert (Li := some_lt _ _ _ A). destruct (i_own s I i o A O) as (a' & w & P' & Q & _). rewrite P in P'. inversion P'; subst a'. assert (La := some_lt _ _ _ Q).
  assert (Old : forall k p, nth_error (upd (objs s) i None) k = Some (Some p) -> k <> i /\ alive s k p).
  { intros k p H. destruct (Nat.eq_dec i k) as [<-|N]; [rewrite upd_same in H by auto; discriminate|]. rewrite upd_other in H by auto. auto. }
  constructor; unfold alive; cbn.
  - intros k p H O'. destruct (Old k p H) as [N H']. destruct (i_own s I k p H' O') as (b & v & X & Y & Z). exists b, v. split; [auto|].
    split; [|auto]. rewrite upd_other; auto. intros ->. apply N. apply (i_uniq s I k i p o b); auto.
  - intros k l p q b H1 H2. destruct (Old k p H1), (Old l q H2). intros. apply (i_uniq s I k l p q b); auto.
  - intros b v H. destruct (Nat.eq_dec a b) as [<-|N]; [rewrite upd_same in H by auto; discriminate|]. rewrite upd_other in H by auto.
    destruct (i_leak s I b v H) as (k & p & X & Y & Z). exists k, p. split; [|auto]. rewrite upd_other; auto.
    intros <-. unfold alive in A, X. rewrite A in X. inversion X; subst. congruence.
Qed.
Lemma inv_destroy_other s i o : Inv s -> alive s i o -> m_own o = false -> Inv (mkSt (heap s) (upd (objs s) i None)).
Proof.
  intros I A O. assert (Li := some_lt _ _ _ A).
  assert (Old : forall k p, nth_error (upd (objs s) i None) k = Some (Some p) -> k <> i /\ alive s k p).
  { intros k p H. destruct (Nat.eq_dec i k) as [<-|N]; [rewrite upd_same in H by auto; discriminate|]. rewrite upd_other in H by auto. auto. }
  constructor; unfold alive; cbn.
  - intros k p H O'. destruct (Old k p H) as [N H']. apply (i_own s I k p H' O').
  - intros k l p q b H1 H2. destruct (Old k p H1), (Old l q H2). intros. apply (i_uniq s I k l p q b); auto.
  - intros b v H. destruct (i_leak s I b v H) as (k & p & X & Y & Z). exists k, p. split; [|auto]. rewrite upd_other; auto.
    intros <-. unfold alive in A, X. rewrite A in X. inversion X; subst. congruence.
Qed.

Definition keeps (s s' : state) (k : nat) : Prop := owner s' k /\ forall v, contents s k v -> contents s' k v.
Lemma keep s s' k o : alive s k o -> m_own o = true -> alive s' k o ->
  (forall a v, m_ptr o = Some a -> nth_error (heap s) a = Some (Some v) -> nth_error (heap s') a = Some (Some v)) -> keeps s s' k.
Proof.
  intros A O A' H. split; [exists o; auto|]. intros v (p & a & B & P & Q & L). unfold alive in A, B. rewrite A in B. inversion B; subst p.
  exists o, a. auto.
Qed.
Lemma alive_eq s i o p : alive s i o -> alive s i p -> o = p.
Proof. unfold alive. congruence. Qed.
Lemma get_alive s i o : alive s i o -> get s i = Ok o.
Proof. unfold alive, get. intros ->. reflexivity. Qed.
Lemma cfree_some h a v : nth_error h a = Some (Some v) -> cfree h (Some a) = Ok (upd h a None).
Proof. intros H. cbn. rewrite H. reflexivity. Qed.
Lemma ccopy_new (h : list (option cells)) z a v : nth_error h a = Some (Some v) -> length z = length v ->
  ccopy (h ++ [Some z]) (Some (length h)) (Some a) (length v) = Ok (h ++ [Some v]).
Proof.
  intros H L. unfold ccopy. destruct (Nat.eqb (length v) 0) eqn:Z.
  - apply Nat.eqb_eq in Z. destruct v; [|discriminate]. destruct z; [reflexivity|discriminate].
  - cbn [live]. rewrite app_last, (app_old h _ a (Some v) H). rewrite L, Nat.leb_refl. cbn [andb].
    rewrite upd_last, firstn_all, skipn_all2, app_nil_r by lia. reflexivity.
Qed.

Lemma transposed_length r c v : length (transposed r c v) = (c * r)%nat.
Proof. unfold transposed. rewrite map_length, seq_length. reflexivity. Qed.
Lemma transposed_at r c v x y : length v = (r * c)%nat -> (x < r)%nat -> (y < c)%nat ->
  nth_error (transposed r c v) (y + x * c) = nth_error v (x + y * r).
Proof.
  intros L X Y. unfold transposed.
  assert (Q : (y + x * c < c * r)%nat).
  { replace (c * r)%nat with (c + (r - 1) * c)%nat by (rewrite Nat.mul_comm; destruct r; [lia|]; cbn; lia).
    assert (x * c <= (r - 1) * c)%nat by (apply Nat.mul_le_mono_r; lia). lia. }
  assert (Q' : (x + y * r < length v)%nat).
  { rewrite L. replace (r * c)%nat with (r + (c - 1) * r)%nat by (rewrite Nat.mul_comm; destruct c; [lia|]; cbn; lia).
    assert (y * r <= (c - 1) * r)%nat by (apply Nat.mul_le_mono_r; lia). lia. }
  rewrite (map_nth_error _ _ _ (d := (y + x * c)%nat)).
  - rewrite Nat.div_add, Nat.mod_add by lia. rewrite Nat.div_small, Nat.mod_small by lia.
    rewrite Nat.add_0_l. symmetry. apply nth_error_nth'. exact Q'.
  - assert (S : forall n b i, (i < n)%nat -> nth_error (seq b n) i = Some (b + i)%nat).
    { intros n; induction n as [|n IH]; intros b i I; [lia|]. destruct i; cbn; [f_equal; lia|]. rewrite IH by lia. f_equal. lia. }
    rewrite S by exact Q. reflexivity.
Qed.

Lemma contents_in s j o v : Inv s -> alive s j o -> m_own o = true -> contents s j v ->
  exists a, m_ptr o = Some a /\ nth_error (heap s) a = Some (Some v) /\ length v = size o.
Proof.
  intros I A O (p & a & B & P & Q & L). rewrite (alive_eq s j o p A B) in *. exists a. auto.
Qed.

Ltac keep_tac I :=
  match goal with
  | K : alive ?s ?k ?o, O : m_own ?o = true |- keeps _ _ _ =>
      apply (keep s _ k o K O)
  end.

Lemma step_safe s o : Inv s -> safe s o -> exists s', step s o = Ok s' /\ Inv s' /\ effect s o s' /\
  forall k, owner s k -> ~ touched o k -> keeps s s' k.
Proof.
  intros I S. destruct o as [|r c|r c v|j|j|j|i j|i j|i j|i]; cbn [safe touched] in S |- *.
  - (* Default *) eexists. split; [reflexivity|]. split; [apply inv_add; auto|]. split.
    + cbn. eexists. split; [apply app_last|]. auto.
    + intros k (o & K & O) _. apply (keep s _ k o K O); [apply app_old; exact K|auto].
  - (* Zero *) eexists. split; [reflexivity|]. split; [apply inv_new; [auto|apply repeat_length]|]. split.
    + cbn. split; [eexists; split; [apply app_last|]; auto|]. eexists. eexists. split; [apply app_last|]. cbn.
      split; [reflexivity|]. split; [apply app_last|apply repeat_length].
    + intros k (o & K & O) _. apply (keep s _ k o K O); [apply app_old; exact K|]. intros a w _ H. apply app_old. exact H.
  - (* Fill *) cbn [step]. rewrite S, Nat.eqb_refl. eexists. split; [reflexivity|]. split; [apply inv_new; [auto|rewrite map_length; exact S]|]. split.
    + cbn. split; [eexists; split; [apply app_last|]; auto|]. eexists. eexists. split; [apply app_last|]. cbn.
      split; [reflexivity|]. split; [apply app_last|rewrite map_length; exact S].
    + intros k (o & K & O) _. apply (keep s _ k o K O); [apply app_old; exact K|]. intros a w _ H. apply app_old. exact H.
  - (* CopyC *) destruct S as (o & A & O). destruct (i_own s I j o A O) as (a & v & P & Q & L).
    cbn [step]. rewrite (get_alive s j o A). cbn [obind]. rewrite P, <- L, ccopy_new by (rewrite ?repeat_length; auto). cbn [obind].
    eexists. split; [reflexivity|]. split; [apply inv_new; auto|]. split.
    + cbn. intros r c w (o' & A' & R & C) W. rewrite <- (alive_eq s j o o' A A') in *.
      destruct (contents_in s j o w I A O W) as (b & P' & Q' & _). rewrite P in P'. inversion P'; subst b. rewrite Q in Q'. inversion Q'; subst w.
      split; [eexists; split; [apply app_last|]; cbn; auto|]. eexists. eexists. split; [apply app_last|]. cbn.
      split; [reflexivity|]. split; [apply app_last|exact L].
    + intros k (o' & K & O') _. apply (keep s _ k o' K O'); [apply app_old; exact K|]. intros b w _ H. apply app_old. exact H.
  - (* MoveC *) destruct S as (o & A & O). destruct (i_own s I j o A O) as (a & v & P & Q & L).
    cbn [step]. rewrite (get_alive s j o A). cbn [obind]. eexists. split; [reflexivity|]. split; [apply inv_move; auto|].
    assert (New : nth_error (upd (objs s) j (Some (mkObj (m_rows o) (m_cols o) (m_ptr o) false)) ++ [Some (mkObj (m_rows o) (m_cols o) (m_ptr o) true)])
       (length (objs s)) = Some (Some (mkObj (m_rows o) (m_cols o) (m_ptr o) true))).
    { rewrite <- (upd_length (objs s) j (Some (mkObj (m_rows o) (m_cols o) (m_ptr o) false))). apply app_last. }
    split.
    + cbn. intros r c w (o' & A' & R & C) W. rewrite <- (alive_eq s j o o' A A') in *.
      destruct (contents_in s j o w I A O W) as (b & P' & Q' & L').
      split; [eexists; split; [exact New|]; cbn; auto|]. eexists. exists b. split; [exact New|]. auto.
    + intros k (o' & K & O') N. apply (keep s _ k o' K O'); [|auto]. apply app_old. rewrite upd_other; auto.
  - (* ViewC *) destruct S as (o & A). cbn [step]. rewrite (get_alive s j o A). cbn [obind]. eexists. split; [reflexivity|].
    split; [apply inv_add; auto|]. split.
    + cbn. intros r c w (o' & A' & R & C) (p & a & B & P & Q & L). rewrite <- (alive_eq s j o o' A A') in *. rewrite <- (alive_eq s j o p A B) in *.
      split; [eexists; split; [apply app_last|]; cbn; auto|]. eexists. exists a. split; [apply app_last|]. auto.
    + intros k (o' & K & O') _. apply (keep s _ k o' K O'); [apply app_old; exact K|auto].
  - (* Assign *) destruct S as (N & (l & A & O) & (o & B & O') & r & c & (l' & A' & R1 & C1) & (o' & B' & R2 & C2)).
    rewrite <- (alive_eq s i l l' A A') in *. rewrite <- (alive_eq s j o o' B B') in *.
    destruct (i_own s I i l A O) as (a & u & P & Q & L). destruct (i_own s I j o B O') as (b & v & P' & Q' & L').
    assert (Nab : a <> b) by (intros <-; apply N; apply (i_uniq s I i j l o a); auto).
    cbn [step]. rewrite (get_alive s i l A), (get_alive s j o B). cbn [obind]. rewrite O, P, (cfree_some _ _ _ Q). cbn [obind].
    rewrite (proj2 (Nat.eqb_neq i j) N), P'. change (size (mkObj (m_rows l) (m_cols l) (Some (length (upd (heap s) a None))) true)) with (m_rows l * m_cols l)%nat.
    assert (E : (m_rows l * m_cols l)%nat = length v) by (rewrite L'; unfold size; congruence). rewrite E.
    rewrite ccopy_new; [|rewrite upd_other; auto|rewrite repeat_length; auto]. cbn [obind]. rewrite upd_length.
    eexists. split; [reflexivity|]. split; [apply (inv_replace s i l a); auto|]. assert (Li := some_lt _ _ _ A). split.
    + cbn. intros r' c' w (q & B2 & R3 & C3) W. rewrite <- (alive_eq s j o q B B2) in *.
      destruct (contents_in s j o w I B O' W) as (b' & X & Y & _). rewrite P' in X. inversion X; subst b'. rewrite Q' in Y. inversion Y; subst w.
      split; [eexists; split; [apply upd_same; auto|]; cbn; split; congruence|].
      eexists. eexists. split; [apply upd_same; auto|]. cbn. split; [reflexivity|]. split; [|auto].
      rewrite <- (upd_length (heap s) a None) at 1. apply app_last.
    + intros k (q & K & OK) NT. apply (keep s _ k q K OK); [unfold alive; cbn; rewrite upd_other; auto|].
      intros b' w X Y. cbn. apply app_old. rewrite upd_other; auto. intros <-. apply NT. apply (i_uniq s I k i q l a); auto.
  - (* MoveAssign *) destruct S as (N & (l & A & F) & (o & B & O)).
    cbn [step]. rewrite (get_alive s i l A), (get_alive s j o B). cbn [obind]. eexists. split; [reflexivity|].
    split; [apply (inv_move_assign s i j l o); auto|]. assert (Li := some_lt _ _ _ A).
    assert (New : nth_error (upd (upd (objs s) i (Some (mkObj (m_rows o) (m_cols o) (m_ptr o) true))) j (Some (mkObj (m_rows o) (m_cols o) (m_ptr o) false))) i
      = Some (Some (mkObj (m_rows o) (m_cols o) (m_ptr o) true))) by (rewrite upd_other by auto; apply upd_same; auto).
    split.
    + cbn. intros r c w (q & B2 & R3 & C3) W. rewrite <- (alive_eq s j o q B B2) in *.
      destruct (contents_in s j o w I B O W) as (b' & X & Y & Z).
      split; [eexists; split; [exact New|]; cbn; auto|]. eexists. exists b'. split; [exact New|]. auto.
    + intros k (q & K & OK) NT. apply (keep s _ k q K OK); [|auto]. unfold alive; cbn. rewrite !upd_other; auto.
  - (* TransAssign *) destruct S as (N & (l & A & O) & (o & B & O') & r & c & (o' & B' & R2 & C2)).
    rewrite <- (alive_eq s j o o' B B') in *.
    destruct (i_own s I i l A O) as (a & u & P & Q & L). destruct (i_own s I j o B O') as (b & v & P' & Q' & L').
    assert (Nab : a <> b) by (intros <-; apply N; apply (i_uniq s I i j l o a); auto).
    cbn [step]. rewrite (get_alive s i l A), (get_alive s j o B). cbn [obind]. rewrite P, (cfree_some _ _ _ Q). cbn [obind].
    cbv zeta. rewrite (proj2 (Nat.eqb_neq i j) N), P', O. replace (Nat.eqb (m_rows o) 0) with false by (rewrite R2; reflexivity). cbn [live].
    rewrite (app_old _ _ b (Some v)) by (rewrite upd_other; auto).
    assert (Lv : length v = (m_cols o * m_rows o)%nat) by (rewrite L'; unfold size; apply Nat.mul_comm).
    rewrite <- Lv, Nat.leb_refl, orb_true_r, upd_last, upd_length.
    eexists. split; [reflexivity|]. split; [apply (inv_replace s i l a); auto; apply transposed_length|]. assert (Li := some_lt _ _ _ A). split.
    + cbn. intros r' c' w (q & B2 & R3 & C3) W. rewrite <- (alive_eq s j o q B B2) in *.
      destruct (contents_in s j o w I B O' W) as (b' & X & Y & _). rewrite P' in X. inversion X; subst b'. rewrite Q' in Y. inversion Y; subst w.
      split; [eexists; split; [apply upd_same; auto|]; cbn; split; congruence|].
      exists (transposed (m_rows o) (m_cols o) v). split.
      * eexists. eexists. split; [apply upd_same; auto|]. cbn. split; [reflexivity|]. split; [|apply transposed_length].
        rewrite <- (upd_length (heap s) a None) at 1. apply app_last.
      * intros x y Hx Hy. rewrite <- R3, <- C3 in *. apply transposed_at; auto.
    + intros k (q & K & OK) NT. apply (keep s _ k q K OK); [unfold alive; cbn; rewrite upd_other; auto|].
      intros b' w X Y. cbn. apply app_old. rewrite upd_other; auto. intros <-. apply NT. apply (i_uniq s I k i q l a); auto.
  - (* Destroy *) destruct S as (o & A). assert (Li := some_lt _ _ _ A). cbn [step]. rewrite (get_alive s i o A). cbn [obind]. destruct (m_own o) eqn:O.
    + destruct (i_own s I i o A O) as (a & u & P & Q & L). rewrite P, (cfree_some _ _ _ Q). cbn [obind].
      eexists. split; [reflexivity|]. split; [apply (inv_destroy_owner s i o a); auto|]. split; [cbn; apply upd_same; auto|].
      intros k (q & K & OK) NT. apply (keep s _ k q K OK); [unfold alive; cbn; rewrite upd_other; auto|].
      intros b' w X Y. cbn. rewrite upd_other; auto. intros <-. apply NT. apply (i_uniq s I k i q o a); auto.
    + cbn [obind]. eexists. split; [reflexivity|]. split; [apply (inv_destroy_other s i o); auto|]. split; [cbn; apply upd_same; auto|].
      intros k (q & K & OK) NT. apply (keep s _ k q K OK); [unfold alive; cbn; rewrite upd_other; auto|auto].
Qed.

Lemma reach_inv s : reach s -> Inv s.
Proof.
  induction 1 as [|s o s' R IH S E].
  - constructor; unfold alive; cbn; intros *; try (destruct i; discriminate). destruct a; discriminate.
  - destruct (step_safe s o IH S) as (s1 & E1 & I1 & _). rewrite E in E1. inversion E1; subst. exact I1.
Qed.
Lemma reach_next s o : reach s -> safe s o -> exists s', step s o = Ok s' /\ effect s o s' /\
  forall k, owner s k -> ~ touched o k -> owner s' k /\ forall v, contents s k v -> contents s' k v.
Proof. intros R S. destruct (step_safe s o (reach_inv s R) S) as (s' & E & _ & F & K). exists s'. auto. Qed.
Lemma reach_memory s : reach s ->
  (forall i o, alive s i o -> m_own o = true -> exists v, contents s i v) /\
  (forall i j o p a, alive s i o -> alive s j p -> m_own o = true -> m_own p = true -> m_ptr o = Some a -> m_ptr p = Some a -> i = j) /\
  (forall a, allocated s a -> exists i o, alive s i o /\ m_own o = true /\ m_ptr o = Some a).
Proof.
  intros R. assert (I := reach_inv s R). split; [|split].
  - intros i o A O. destruct (i_own s I i o A O) as (a & v & P & Q & L). exists v, o, a. auto.
  - exact (i_uniq s I).
  - intros a (v & H). exact (i_leak s I a v H).
Qed.
Lemma reach_no_leak s : reach s -> (forall i o, ~ alive s i o) -> forall a, ~ allocated s a.
Proof. intros R E a A. destruct (proj2 (proj2 (reach_memory s R)) a A) as (i & o & B & _). exact (E i o B). Qed.

Lemma upd_gone (A : Type) (l : list (option A)) : forall i x, nth_error (upd l i None) i <> Some (Some x).
Proof. induction l as [|a l IH]; intros [|i] x; cbn; try discriminate. apply IH. Qed.
Lemma destroyed_main s i s' : step s (Destroy i) = Ok s' ->
  (forall j, In j [CopyC i; MoveC i; ViewC i; Destroy i] -> step s' j = UB) /\
  (forall j, step s' (Assign i j) = UB /\ step s' (MoveAssign i j) = UB /\ step s' (TransAssign i j) = UB) /\
  (forall j, step s' (Assign j i) = UB /\ step s' (MoveAssign j i) = UB /\ step s' (TransAssign j i) = UB).
Proof.
  intro E. assert (G : get s' i = UB).
  { cbn in E. destruct (get s i) as [o| |]; cbn in E; try discriminate.
    destruct (if m_own o then _ else _) as [h| |]; cbn in E; try discriminate. inversion E; subst. unfold get; cbn.
    destruct (nth_error _ _) as [[x|]|] eqn:N; try reflexivity. destruct (upd_gone _ _ _ _ N). }
  assert (D : forall j, get s' j = UB \/ exists o, get s' j = Ok o).
  { intro j. unfold get. destruct (nth_error _ _) as [[o|]|]; eauto. }
  split; [|split].
  - intros j [<-|[<-|[<-|[<-|[]]]]]; cbn; rewrite G; reflexivity.
  - intro j. cbn. rewrite G. auto.
  - intro j. cbn. destruct (D j) as [-> |[o ->]]; cbn; rewrite ?G; auto.
Qed.
