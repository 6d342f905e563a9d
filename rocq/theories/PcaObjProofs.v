(** Proofs for C169: the loop over the locations. *)
From Coq Require Import Reals Bool List Arith ZArith Lia Lra.
From Verif Require Import XReal XRealFacts Sums PcaObjModel PcaObjSpec.
Import ListNotations.
Local Open Scope R_scope.

(** ** Tables of a function *)
Definition tab {A : Type} (n : nat) (f : nat -> A) : list A := map f (seq 0 n).
Lemma tab_length {A} n (f : nat -> A) : length (tab n f) = n.
Proof. unfold tab. now rewrite map_length, seq_length. Qed.
Lemma tab_at {A} n (f : nat -> A) i : (i < n)%nat -> nth_error (tab n f) i = Some (f i).
Proof. intros L. unfold tab. rewrite nth_error_map. rewrite nth_error_nth' with (d := 0%nat) by (rewrite seq_length; exact L). now rewrite seq_nth. Qed.
Lemma tab_ext {A} n (f g : nat -> A) : (forall i, (i < n)%nat -> f i = g i) -> tab n f = tab n g.
Proof. intros H. unfold tab. apply map_ext_in. intros i I. apply in_seq in I. apply H. lia. Qed.
Lemma repeat_tab {A} (a : A) n : repeat a n = tab n (fun _ => a).
Proof.
  unfold tab. generalize 0%nat. induction n as [|n IH]; intros k; cbn [repeat seq map]; [reflexivity|]. now rewrite (IH (S k)).
Qed.
Lemma map_tab {A B} (g : A -> B) n f : map g (tab n f) = tab n (fun i => g (f i)).
Proof. unfold tab. now rewrite map_map. Qed.
Lemma list_ext {A} : forall (l m : list A), (forall i, nth_error l i = nth_error m i) -> l = m.
Proof.
  induction l as [|a l IH]; intros [|b m] H; try reflexivity.
  - specialize (H 0%nat). discriminate.
  - specialize (H 0%nat). discriminate.
  - pose proof (H 0%nat) as H0. cbn in H0. injection H0 as ->. f_equal. apply IH. intros i. exact (H (S i)).
Qed.
Lemma nth_error_skip {A} : forall k (m : list A) j, nth_error (skipn k m) j = nth_error m (k + j).
Proof. induction k as [|k IH]; intros [|a m] j; cbn; auto. destruct j; reflexivity. Qed.
Lemma nth_error_first {A} : forall k (m : list A) j, (j < k)%nat -> nth_error (firstn k m) j = nth_error m j.
Proof. induction k as [|k IH]; intros [|a m] j L; [lia|lia|reflexivity|]. destruct j; cbn; [reflexivity|]. apply IH. lia. Qed.
Lemma put_length {A} i (a : A) m : (i < length m)%nat -> length (put i a m) = length m.
Proof. intros L. unfold put. rewrite app_length, firstn_length. cbn [length]. rewrite skipn_length. lia. Qed.
Lemma put_tab {A} i (a : A) n f : (i < n)%nat -> put i a (tab n f) = tab n (fun k => if Nat.eqb k i then a else f k).
Proof.
  intros L. apply list_ext. intros j. destruct (Nat.lt_ge_cases j n) as [J|J].
  - rewrite (tab_at n _ j J). unfold put. destruct (Nat.lt_trichotomy j i) as [H|[->|H]].
    + rewrite nth_error_app1 by (rewrite firstn_length, tab_length; lia). rewrite nth_error_first, tab_at by lia.
      destruct (Nat.eqb_spec j i); [lia|reflexivity].
    + rewrite nth_error_app2; rewrite firstn_length, tab_length; [|lia]. replace (i - min i n)%nat with 0%nat by lia. now rewrite Nat.eqb_refl.
    + rewrite nth_error_app2 by (rewrite firstn_length, tab_length; lia). rewrite firstn_length, tab_length.
      replace (j - min i n)%nat with (S (j - S i)) by lia. cbn [nth_error]. rewrite nth_error_skip.
      replace (S i + (j - S i))%nat with j by lia. rewrite tab_at by exact J. destruct (Nat.eqb_spec j i); [lia|reflexivity].
  - rewrite (proj2 (nth_error_None _ _)) by (rewrite put_length; rewrite tab_length; lia).
    now rewrite (proj2 (nth_error_None _ _)) by (rewrite tab_length; lia).
Qed.

(** ** Storing the loadings of one location *)
Lemma store_tab c i V k : length V = c -> Forall (fun v => length v = c) V -> forall count j F, (j + count = k)%nat -> (j <= c)%nat ->
  store c i j count V (tab k F) =
  (tab k (fun j' => if (Nat.leb j j' && Nat.ltb j' c)%bool then put i (nth j' V []) (F j') else F j'), Nat.leb k c).
Proof.
  intros LV FV. induction count as [|m IH]; intros j F E J; cbn [store].
  - replace k with j in * by lia. rewrite (proj2 (Nat.leb_le j c) J). f_equal. apply tab_ext. intros j' L.
    destruct (Nat.leb_spec j j'); [lia|reflexivity].
  - destruct (Nat.lt_ge_cases j c) as [L|L].
    + rewrite (nth_error_nth' V []) by lia. rewrite tab_at by lia.
      assert (EL : length (nth j V []) = c). { rewrite Forall_forall in FV. apply FV. apply nth_In. lia. }
      rewrite EL, Nat.eqb_refl, put_tab by lia. rewrite IH by lia. f_equal. apply tab_ext. intros j' L'.
      destruct (Nat.eqb_spec j' j) as [->|N].
      * destruct (Nat.leb_spec (S j) j); [lia|]. destruct (Nat.leb_spec j j); [|lia]. destruct (Nat.ltb_spec j c); [reflexivity|lia].
      * destruct (Nat.leb_spec (S j) j'), (Nat.leb_spec j j'); try lia; reflexivity.
    + rewrite (proj2 (nth_error_None V j)) by lia. destruct (Nat.leb_spec k c); [lia|]. f_equal. apply tab_ext. intros j' L'.
      destruct (Nat.leb_spec j j'), (Nat.ltb_spec j' c); try lia; reflexivity.
Qed.

Section Loop.
Context {table : Type} {rows columns : table -> nat} {decompose : table -> (nat -> R) -> option (list R * list (list R))}.
Variable stop : nat -> bool.
Variable o : obj table.
Variables (n c k : nat) (d : nat -> list R) (V : nat -> list (list R)).
Hypothesis RN : rows (o_x table o) = n.
Hypothesis ON : o_locs table o = n.
Hypothesis CC : columns (o_x table o) = c.
Hypothesis OK : o_k table o = Z.of_nat k.
Local Notation w := (o_weight table o).
Local Notation x := (o_x table o).
Local Notation lp := (loop table rows columns decompose stop o).
Definition cube (f : nat -> nat -> list R) : list (list (list R)) := tab k (fun j => tab n (f j)).
Definition visited (a i : nat) : Prop := (a <= i)%nat /\ forall j, (a <= j <= i)%nat -> stop j = false.

Lemma loop_app : forall l1 l2 da w0 l da' w0' l', lp l1 da w0 l = Ended false da' w0' l' -> lp (l1 ++ l2) da w0 l = lp l2 da' w0' l'.
Proof.
  induction l1 as [|i t IH]; intros l2 da w0 l da' w0' l' E; cbn [app loop] in *; [congruence|].
  destruct (stop i); [discriminate|]. destruct (negb _); [discriminate|].
  destruct (match decompose x (w i) with Some r => r | None => ([], []) end) as [dd VV].
  destruct (negb _); [discriminate|]. destruct (store _ _ _ _ _ _) as [l'' [|]]; [|discriminate]. now apply IH.
Qed.

Lemma loop_ended (KC : (k <= c)%nat) : forall m a fd fl w0, (a + m <= n)%nat ->
  (forall i, (i < a + m)%nat -> visited a i -> decompose x (w i) = Some (d i, V i) /\ complete c (d i) (V i)) ->
  exists fd' fl' w0', lp (seq a m) (tab n fd) w0 (cube fl) = Ended (existsb stop (seq a m)) (tab n fd') w0' (cube fl') /\
    (forall i, (i < a + m)%nat -> visited a i -> fd' i = d i /\ forall j, (j < k)%nat -> fl' j i = nth j (V i) []) /\
    (forall i, ~ ((i < a + m)%nat /\ visited a i) -> fd' i = fd i /\ forall j, fl' j i = fl j i) /\
    (forall i, (i < a + m)%nat -> visited a i -> (forall i', (i < i' < a + m)%nat -> ~ visited a i') -> w0' = Some (w i)) /\
    ((forall i, (i < a + m)%nat -> ~ visited a i) -> w0' = w0).
Proof.
  induction m as [|m IH]; intros a fd fl w0 B H; cbn [seq loop existsb].
  - exists fd, fl, w0. split; [reflexivity|]. split; [intros i L [V1 _]; lia|]. split; [intros; split; auto|]. split; [intros i L [V1 _]; lia|reflexivity].
  - destruct (stop a) eqn:S; cbn [orb].
    { exists fd, fl, w0. assert (NV : forall i, ~ visited a i). { intros i [L N]. rewrite N in S by lia. discriminate. }
      split; [reflexivity|]. split; [intros i _ X; elim (NV i X)|]. split; [intros; split; auto|]. split; [intros i _ X; elim (NV i X)|reflexivity]. }
    assert (VA : visited a a) by (split; [lia|]; intros j J; now replace j with a by lia).
    destruct (H a) as [DE (LD & _ & LV & FV)]; [lia|exact VA|].
    rewrite RN, ON, Nat.eqb_refl. cbn [negb]. rewrite DE. rewrite LD, CC, Nat.eqb_refl. cbn [negb]. rewrite OK, Nat2Z.id.
    unfold cube at 1. rewrite (store_tab c a (V a) k LV FV k 0) by lia. rewrite (proj2 (Nat.leb_le k c) KC).
    rewrite put_tab by lia.
    assert (VS : forall i, visited (Datatypes.S a) i -> visited a i).
    { intros i [L N]. split; [lia|]. intros j J. destruct (Nat.eq_dec j a) as [->|]; [exact S|]. apply N. lia. }
    assert (SV : forall i, visited a i -> i <> a -> visited (Datatypes.S a) i).
    { intros i [L N] NE. split; [lia|]. intros j J. apply N. lia. }
    replace (tab k (fun j' => if (Nat.leb 0 j' && Nat.ltb j' c)%bool then put a (nth j' (V a) []) (tab n (fl j')) else tab n (fl j')))
      with (cube (fun j' i' => if Nat.eqb i' a then nth j' (V a) [] else fl j' i')).
    2:{ unfold cube. apply tab_ext. intros j' J. rewrite put_tab by lia. destruct (Nat.ltb_spec j' c); [|lia]. reflexivity. }
    destruct (IH (Datatypes.S a) (fun k0 => if Nat.eqb k0 a then d a else fd k0) (fun j' i' => if Nat.eqb i' a then nth j' (V a) [] else fl j' i') (Some (w a)))
      as (fd' & fl' & w0' & E & P1 & P2 & P3 & P4); [lia| |].
    { intros i L N. apply H; [lia|]. now apply VS. }
    exists fd', fl', w0'. split; [exact E|].
    assert (NA : ~ ((a < Datatypes.S a + m)%nat /\ visited (Datatypes.S a) a)) by (intros [_ [L _]]; lia).
    split; [|split; [|split]].
    + intros i L N. destruct (Nat.eq_dec i a) as [->|NE].
      * destruct (P2 a NA) as [Q1 Q2]. rewrite Nat.eqb_refl in Q1. split; [exact Q1|]. intros j J. rewrite Q2, Nat.eqb_refl. reflexivity.
      * apply P1; [lia|]. now apply SV.
    + intros i N. assert (NE : i <> a) by (intros ->; apply N; split; [lia|exact VA]).
      destruct (P2 i) as [Q1 Q2]. { intros [L N']. apply N. split; [lia|]. now apply VS. }
      destruct (Nat.eqb_spec i a) as [|_]; [contradiction|]. split; [exact Q1|]. intros j. rewrite Q2.
      destruct (Nat.eqb_spec i a) as [|_]; [contradiction|reflexivity].
    + intros i L N LAST. destruct (Nat.eq_dec i a) as [->|NE].
      * apply P4. intros i' L' N'. pose proof (proj1 N') as A1. apply (LAST i'); [lia|]. now apply VS.
      * apply P3; [lia|now apply SV|]. intros i' L' N'. apply (LAST i'); [lia|]. now apply VS.
    + intros NO. elim (NO a); [lia|exact VA].
Qed.
End Loop.
