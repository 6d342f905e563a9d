(** Proofs for C167: a row shared by all iterations. *)
From Coq Require Import Reals List Arith Lia Bool.
From Verif Require Import RaceModel RaceSpec RaceMain.
Import ListNotations.

Section Torn.
Variable value : nat -> nat -> R.

Lemma row_app r a b : row_after value r (a ++ b) = row_after value (row_after value r a) b.
Proof. unfold row_after. apply fold_left_app. Qed.
Lemma row_other b : forall r j, (forall i, ~ In (i, j) b) -> row_after value r b j = r j.
Proof.
  induction b as [|[x y] b IH]; intros r j N; [reflexivity|].
  change (row_after value (set r y (value x y)) b j = r j). rewrite IH.
  - unfold set. destruct (Nat.eqb_spec j y) as [->|_]; [|reflexivity]. exfalso. apply (N x). now left.
  - intros i H. apply (N i). now right.
Qed.
Lemma row_last a b r i j : (forall k, ~ In (k, j) b) -> row_after value r (a ++ (i, j) :: b) j = value i j.
Proof.
  intros N. rewrite row_app. change (row_after value (set (row_after value r a) j (value i j)) b j = value i j).
  rewrite row_other by assumption. unfold set. now rewrite Nat.eqb_refl.
Qed.
Lemma last_write j : forall ws : list (nat * nat), (exists i, In (i, j) ws) ->
  exists i a b, ws = a ++ (i, j) :: b /\ forall k, ~ In (k, j) b.
Proof.
  induction ws as [|[x y] ws IH]; intros [i H]; [contradiction|].
  destruct (in_dec Nat.eq_dec j (map snd ws)) as [D|D].
  - apply in_map_iff in D. destruct D as [[u v] [E D]]. cbn in E. subst v.
    destruct (IH (ex_intro _ u D)) as (i0 & a & b & -> & N). exists i0, ((x, y) :: a), b. auto.
  - assert (y = j) as ->.
    { destruct H as [H|H]; [congruence|]. exfalso. apply D. apply in_map_iff. exists (i, j). auto. }
    exists x, [], ws. split; [reflexivity|]. intros k K. apply D. apply in_map_iff. exists (k, j). auto.
Qed.
Lemma split_unique {A} (x : A) : forall a b a' b', NoDup (a ++ x :: b) -> a ++ x :: b = a' ++ x :: b' -> b = b'.
Proof.
  induction a as [|u a IH]; intros b [|u' a'] b' N E; cbn in *.
  - now injection E.
  - injection E as <- E. inversion N as [|? ? N1 N2]. exfalso. apply N1. rewrite E. apply in_elt.
  - injection E as -> E. inversion N as [|? ? N1 N2]. exfalso. apply N1. apply in_elt.
  - injection E as <- E. inversion N. now apply (IH b a').
Qed.

Variables lo hi p : nat.
Variable thr : nat -> nat.
Lemma torn_only ws r j : writing lo hi p thr ws -> (lo < hi)%nat -> (j < p)%nat ->
  exists i, last_of_thread lo hi thr i /\ row_after value r ws j = value i j.
Proof.
  intros (ND & IN & OR) LH J.
  destruct (last_write j ws) as (i & a & b & E & N). { exists lo. apply IN. lia. }
  assert (I : (lo <= i < hi)%nat /\ (j < p)%nat) by (apply IN; rewrite E; apply in_elt).
  exists i. split.
  - split; [apply I|]. intros k K T. destruct (OR i k j j) as (a' & q & r' & E'); try assumption; try lia; try (now symmetry).
    apply (N k). rewrite E in E', ND. apply (split_unique _ _ _ _ _ ND) in E'. rewrite E'. apply in_elt.
  - rewrite E. apply row_last. exact N.
Qed.

(** Every choice of last iterations can be the result. *)
Definition lastb (i : nat) : bool := forallb (fun k => negb (Nat.eqb (thr k) (thr i))) (seq (S i) (hi - S i)).
Lemma lastb_spec i : (lo <= i < hi)%nat -> lastb i = true <-> last_of_thread lo hi thr i.
Proof.
  intros I. unfold lastb, last_of_thread. rewrite forallb_forall. split.
  - intros H. split; [exact I|]. intros k K. specialize (H k). rewrite in_seq in H. rewrite negb_true_iff, Nat.eqb_neq in H. apply H. lia.
  - intros [_ H] k K. rewrite in_seq in K. rewrite negb_true_iff, Nat.eqb_neq. apply H. lia.
Qed.

Definition row_of (i : nat) : list (nat * nat) := map (pair i) (seq 0 p).
Definition all := seq lo (hi - lo).
Definition others (x : nat) : list nat := filter (fun i => lastb i && negb (Nat.eqb i x)) all.
Definition col_of (o : nat -> nat) (j : nat) : list (nat * nat) := map (fun i => (i, j)) (others (o j) ++ [o j]).
Definition choice (o : nat -> nat) : list (nat * nat) :=
  flat_map row_of (filter (fun i => negb (lastb i)) all) ++ flat_map (col_of o) (seq 0 p).

Lemma in_all i : In i all <-> (lo <= i < hi)%nat.
Proof. unfold all. rewrite in_seq. lia. Qed.
Lemma in_row i a b : In (a, b) (row_of i) <-> a = i /\ (b < p)%nat.
Proof.
  unfold row_of. rewrite in_map_iff. split.
  - intros (x & E & H). injection E as <- <-. rewrite in_seq in H. split; [reflexivity|lia].
  - intros [-> H]. exists b. rewrite in_seq. split; [reflexivity|lia].
Qed.

Variable o : nat -> nat.
Hypothesis O : forall j, (j < p)%nat -> last_of_thread lo hi thr (o j).
Lemma in_col a j b : (j < p)%nat -> In (a, b) (col_of o j) <-> b = j /\ (lo <= a < hi)%nat /\ lastb a = true.
Proof.
  intros J. unfold col_of. rewrite in_map_iff. split.
  - intros (x & E & H). injection E as <- <-. split; [reflexivity|]. rewrite in_app_iff in H. destruct H as [H|[<-|[]]].
    + unfold others in H. rewrite filter_In, in_all, andb_true_iff in H. tauto.
    + split; [apply O, J|]. apply lastb_spec; [apply O, J|apply O, J].
  - intros (-> & A & L). exists a. split; [reflexivity|]. rewrite in_app_iff. destruct (Nat.eq_dec a (o j)) as [E|E].
    + right. left. now symmetry.
    + left. unfold others. rewrite filter_In, in_all, andb_true_iff, negb_true_iff, Nat.eqb_neq. tauto.
Qed.
Lemma in_first a b : In (a, b) (flat_map row_of (filter (fun i => negb (lastb i)) all)) <-> (lo <= a < hi)%nat /\ (b < p)%nat /\ lastb a = false.
Proof.
  rewrite in_flat_map. split.
  - intros (x & H & K). rewrite in_row in K. destruct K as [<- K]. rewrite filter_In, in_all, negb_true_iff in H. tauto.
  - intros (A & B & L). exists a. rewrite in_row, filter_In, in_all, negb_true_iff. tauto.
Qed.
Lemma in_second a b : In (a, b) (flat_map (col_of o) (seq 0 p)) <-> (lo <= a < hi)%nat /\ (b < p)%nat /\ lastb a = true.
Proof.
  rewrite in_flat_map. split.
  - intros (j & H & K). rewrite in_seq in H. rewrite in_col in K by lia. destruct K as (-> & A & L). repeat split; try tauto; lia.
  - intros (A & B & L). exists b. rewrite in_seq, in_col by assumption. repeat split; try tauto; lia.
Qed.
Lemma nodup_app {A} : forall a b : list A, NoDup a -> NoDup b -> (forall x, In x a -> ~ In x b) -> NoDup (a ++ b).
Proof.
  induction a as [|x a IH]; intros b Na Nb D; [exact Nb|]. inversion Na as [|? ? N1 N2]. subst. cbn. constructor.
  - rewrite in_app_iff. intros [H|H]; [contradiction|]. apply (D x); [now left|exact H].
  - apply IH; [assumption|assumption|]. intros y Y. apply D. now right.
Qed.
Lemma nodup_flat {A B} (g : A -> list B) : forall l, NoDup l -> (forall x, In x l -> NoDup (g x)) ->
  (forall x y z, In x l -> In y l -> In z (g x) -> In z (g y) -> x = y) -> NoDup (flat_map g l).
Proof.
  induction l as [|x l IH]; intros N G D; [constructor|]. cbn. inversion N as [|? ? N1 N2]. subst.
  apply nodup_app.
  - apply G. now left.
  - apply IH; [assumption|intros; apply G; now right|]. intros u v z U V. apply D; now right.
  - intros z Z K. apply in_flat_map in K. destruct K as (y & Y & K). apply N1.
    rewrite (D x y z); [exact Y|now left|now right|exact Z|exact K].
Qed.
Lemma nodup_map {A B} (g : A -> B) : (forall x y, g x = g y -> x = y) -> forall l, NoDup l -> NoDup (map g l).
Proof.
  intros G. induction l as [|x l IH]; intros N; [constructor|]. inversion N. subst. cbn. constructor; [|auto].
  rewrite in_map_iff. intros (y & E & Y). apply G in E. now subst.
Qed.
Lemma nodup_choice : NoDup (choice o).
Proof.
  unfold choice. apply nodup_app.
  - apply nodup_flat.
    + apply NoDup_filter, seq_NoDup.
    + intros x _. apply nodup_map; [congruence|apply seq_NoDup].
    + intros x y [a b] _ _. rewrite !in_row. intros [-> _] [-> _]. reflexivity.
  - apply nodup_flat.
    + apply seq_NoDup.
    + intros j J. apply nodup_map; [congruence|]. apply nodup_app.
      * apply NoDup_filter, seq_NoDup.
      * constructor; [tauto|constructor].
      * unfold others. intros x H [<-|[]]. rewrite filter_In, Nat.eqb_refl in H. cbn in H. rewrite andb_false_r in H. destruct H. discriminate.
    + intros x y [a b] X Y. rewrite in_seq in X, Y. rewrite !in_col by lia. intros [-> _] [-> _]. reflexivity.
  - intros [a b] H K. apply in_first in H. apply in_second in K. destruct H as (_ & _ & H), K as (_ & _ & K). congruence.
Qed.

Lemma before_l {A} (l m : list A) x y : before l x y -> before (l ++ m) x y.
Proof. intros (a & b & c & ->). exists a, b, (c ++ m). now repeat (rewrite <- app_assoc || rewrite <- app_comm_cons). Qed.
Lemma before_r {A} (l m : list A) x y : before m x y -> before (l ++ m) x y.
Proof. intros (a & b & c & ->). exists (l ++ a), b, c. now rewrite app_assoc. Qed.
Lemma before_cross {A} (l m : list A) x y : In x l -> In y m -> before (l ++ m) x y.
Proof.
  intros X Y. apply in_split in X. apply in_split in Y. destruct X as (a & b & ->), Y as (c & d & ->).
  exists a, (b ++ c), d. now repeat (rewrite <- app_assoc || rewrite <- app_comm_cons).
Qed.
Lemma before_flat {A B} (g : A -> list B) l x y u v : before l x y -> In u (g x) -> In v (g y) -> before (flat_map g l) u v.
Proof.
  intros (a & b & c & ->) U V. rewrite flat_map_app. apply before_r. cbn. apply before_cross; [exact U|].
  rewrite flat_map_app. apply in_app_iff. right. cbn. apply in_app_iff. now left.
Qed.
Lemma before_flat_in {A B} (g : A -> list B) l x u v : In x l -> before (g x) u v -> before (flat_map g l) u v.
Proof.
  intros X H. apply in_split in X. destruct X as (a & b & ->). rewrite flat_map_app. apply before_r. cbn. now apply before_l.
Qed.
Lemma before_map {A B} (g : A -> B) l x y : before l x y -> before (map g l) (g x) (g y).
Proof. intros (a & b & c & ->). exists (map g a), (map g b), (map g c). now rewrite map_app, map_cons, map_app, map_cons. Qed.
Lemma before_seq n : forall s x y, (s <= x)%nat -> (x < y < s + n)%nat -> before (seq s n) x y.
Proof.
  induction n as [|n IH]; intros s x y X Y; [lia|]. cbn. destruct (Nat.eq_dec s x) as [->|E].
  - apply (before_cross [x] (seq (S x) n)); [now left|]. apply in_seq. lia.
  - apply (before_r [s] (seq (S s) n)). apply IH; lia.
Qed.
Lemma before_filter {A} (g : A -> bool) l x y : before l x y -> g x = true -> g y = true -> before (filter g l) x y.
Proof.
  intros (a & b & c & ->) X Y. exists (filter g a), (filter g b), (filter g c).
  rewrite filter_app. cbn. rewrite X, filter_app. cbn. now rewrite Y.
Qed.

Lemma choice_writing : writing lo hi p thr (choice o).
Proof.
  split; [exact nodup_choice|]. split.
  - intros i j. unfold choice. rewrite in_app_iff, in_first, in_second. destruct (lastb i); intuition congruence.
  - intros i i' j j' I I' T J J' C. unfold choice.
    destruct (lastb i) eqn:L, (lastb i') eqn:L'.
    + destruct C as [C|[<- C]].
      * exfalso. apply lastb_spec in L; [|exact I]. apply (proj2 L i'); [lia|now symmetry].
      * apply before_r. apply (before_flat _ _ j j'); [apply before_seq; lia| |]; rewrite in_col by assumption; tauto.
    + destruct C as [C|[<- C]]; [|congruence]. exfalso. apply lastb_spec in L; [|exact I]. apply (proj2 L i'); [lia|now symmetry].
    + apply before_cross; [apply in_first; tauto|apply in_second; tauto].
    + apply before_l. destruct C as [C|[<- C]].
      * apply (before_flat _ _ i i'); [|now rewrite in_row|now rewrite in_row].
        apply before_filter; [|now rewrite L|now rewrite L']. apply before_seq; lia.
      * apply (before_flat_in _ _ i); [rewrite filter_In, in_all, L; now split|]. apply before_map, before_seq; lia.
Qed.
Lemma row_choice r j : (j < p)%nat -> row_after value r (choice o) j = value (o j) j.
Proof.
  intros J. unfold choice.
  assert (E : seq 0 p = seq 0 j ++ j :: seq (S j) (p - S j)).
  { replace p with (j + S (p - S j))%nat at 1 by lia. rewrite seq_app. reflexivity. }
  rewrite E, flat_map_app. cbn [flat_map]. unfold col_of at 2. rewrite map_app. cbn [map].
  repeat rewrite <- app_assoc. cbn [app]. rewrite !app_assoc. apply row_last.
  intros k K. apply in_flat_map in K. destruct K as (j' & J' & K). rewrite in_seq in J'.
  unfold col_of in K. apply in_map_iff in K. destruct K as (x & EX & _). injection EX as _ EX. lia.
Qed.
Lemma torn_all : exists ws, writing lo hi p thr ws /\ forall r j, (j < p)%nat -> row_after value r ws j = value (o j) j.
Proof. exists (choice o). split; [exact choice_writing|]. intros. now apply row_choice. Qed.
End Torn.

Lemma last_exists lo hi thr i : (lo <= i < hi)%nat -> exists k, last_of_thread lo hi thr k /\ thr k = thr i.
Proof.
  remember (hi - i)%nat as n eqn:N. revert i N. induction n as [n IH] using lt_wf_ind. intros i -> I.
  destruct (lastb hi thr i) eqn:L.
  - exists i. split; [|reflexivity]. now apply (lastb_spec lo).
  - assert (X : exists k, (i < k < hi)%nat /\ thr k = thr i).
    { unfold lastb in L. destruct (existsb (fun k => Nat.eqb (thr k) (thr i)) (seq (S i) (hi - S i))) eqn:X.
      - apply existsb_exists in X. destruct X as (k & K & E). rewrite in_seq in K. apply Nat.eqb_eq in E. exists k. split; [lia|exact E].
      - exfalso. apply not_true_iff_false in L. apply L. apply forallb_forall. intros k K. apply negb_true_iff.
        apply not_true_iff_false. intros E. apply not_true_iff_false in X. apply X. apply existsb_exists. exists k. auto. }
    destruct X as (k & K & E). destruct (IH (hi - k)%nat ltac:(lia) k eq_refl ltac:(lia)) as (m & M & EM). exists m. split; [exact M|congruence].
Qed.
Lemma C167_torn_main value lo hi p thr : (lo < hi)%nat ->
  (forall ws r j, writing lo hi p thr ws -> (j < p)%nat -> exists i, last_of_thread lo hi thr i /\ row_after value r ws j = value i j) /\
  (forall o, (forall j, (j < p)%nat -> last_of_thread lo hi thr (o j)) ->
     exists ws, writing lo hi p thr ws /\ forall r j, (j < p)%nat -> row_after value r ws j = value (o j) j).
Proof.
  intros L. split.
  - intros. now apply (torn_only value lo hi p thr).
  - intros o O. now apply torn_all.
Qed.
Lemma C167_no_row_main value lo hi p thr i i' : (lo <= i < hi)%nat -> (lo <= i' < hi)%nat -> thr i <> thr i' -> (2 <= p)%nat ->
  (forall a b j, (lo <= a < hi)%nat -> (lo <= b < hi)%nat -> (j < p)%nat -> value a j = value b j -> a = b) ->
  exists ws, writing lo hi p thr ws /\ forall r k, (lo <= k < hi)%nat -> exists j, (j < p)%nat /\ row_after value r ws j <> value k j.
Proof.
  intros I I' T P V. destruct (last_exists lo hi thr i I) as (a & A & EA). destruct (last_exists lo hi thr i' I') as (b & B & EB).
  destruct (torn_all value lo hi p thr (fun j => match j with 0%nat => a | _ => b end)) as (ws & W & R).
  { intros [|j] _; assumption. }
  exists ws. split; [exact W|]. intros r k K. destruct (Nat.eq_dec k a) as [->|E].
  - exists 1%nat. split; [lia|]. rewrite R by lia. intros X. apply V in X; [|apply B|apply A|lia]. congruence.
  - exists 0%nat. split; [lia|]. rewrite R by lia. intros X. apply V in X; [|apply A|exact K|lia]. congruence.
Qed.
