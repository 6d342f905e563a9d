(** Proofs for C168: loops and rows. *)
From Coq Require Import Reals Bool List Arith Lia Lra Permutation.
From Verif Require Import Outcome XReal XRealFacts RSort Sums GwssModel GwssSpec GwssProofs GwssCases GwssValues GwssObjModel GwssObjSpec.
Import ListNotations.
Local Open Scope R_scope.

(** ** Rows *)
Lemma put_length i row m : (i < length m)%nat -> length (put i row m) = length m.
Proof. intros L. unfold put. rewrite app_length, firstn_length. cbn [length]. rewrite skipn_length. lia. Qed.
Lemma put_same i row m : (i < length m)%nat -> nth_error (put i row m) i = Some row.
Proof. intros L. unfold put. rewrite nth_error_app2; rewrite firstn_length; [|lia]. replace (i - min i (length m))%nat with 0%nat by lia. reflexivity. Qed.
Lemma nth_error_skip {A} : forall k (m : list A) j, nth_error (skipn k m) j = nth_error m (k + j).
Proof. induction k as [|k IH]; intros [|a m] j; cbn; auto. destruct j; reflexivity. Qed.
Lemma nth_error_first {A} : forall k (m : list A) j, (j < k)%nat -> nth_error (firstn k m) j = nth_error m j.
Proof. induction k as [|k IH]; intros [|a m] j L; [lia|lia|reflexivity|]. destruct j; cbn; [reflexivity|]. apply IH. lia. Qed.
Lemma put_other i row m j : (i < length m)%nat -> j <> i -> nth_error (put i row m) j = nth_error m j.
Proof.
  intros L N. unfold put. destruct (Nat.lt_ge_cases j i) as [H|H].
  - rewrite nth_error_app1 by (rewrite firstn_length; lia). now apply nth_error_first.
  - rewrite nth_error_app2 by (rewrite firstn_length; lia). rewrite firstn_length. replace (j - min i (length m))%nat with (S (j - S i)) by lia.
    cbn [nth_error]. rewrite nth_error_skip. f_equal. lia.
Qed.

Section Fold.
Variable U : nat -> stats -> stats.
Variable g : stats -> matrix.
Variable Rw : nat -> list xd.
Lemma fold_put (PU : forall i s, g (U i s) = put i (Rw i) (g s)) l : forall s, (forall i, In i l -> (i < length (g s))%nat) ->
  let s' := fold_left (fun s i => U i s) l s in
  length (g s') = length (g s) /\ (forall i, In i l -> nth_error (g s') i = Some (Rw i)) /\ (forall i, ~ In i l -> nth_error (g s') i = nth_error (g s) i).
Proof.
  induction l as [|a l IH]; intros s B; cbv zeta; cbn [fold_left].
  - split; [reflexivity|]. split; [intros i []|reflexivity].
  - assert (LA : (a < length (g s))%nat) by (apply B; now left).
    assert (LU : length (g (U a s)) = length (g s)) by (rewrite PU; now apply put_length).
    destruct (IH (U a s)) as (L & I & N). { intros i H. rewrite LU. apply B. now right. }
    split; [congruence|]. split.
    + intros i H. destruct (in_dec Nat.eq_dec i l) as [D|D]; [now apply I|]. destruct H as [<-|H]; [|contradiction].
      rewrite (N a D), PU. now apply put_same.
    + intros i H. rewrite N by (intros D; apply H; now right). rewrite PU. apply put_other; [exact LA|]. intros ->. apply H. now left.
Qed.
Lemma fold_same (PU : forall i s, g (U i s) = g s) l : forall s, g (fold_left (fun s i => U i s) l s) = g s.
Proof. induction l as [|a l IH]; intros s; cbn [fold_left]; [reflexivity|]. now rewrite IH. Qed.
End Fold.

(** ** Loops *)
Section Loops.
Variable stop : nat -> bool.
Fixpoint until (todo : list nat) : list nat := match todo with [] => [] | i :: t => if stop i then [] else i :: until t end.
Lemma in_until n : forall k i, In i (until (seq k n)) <-> (k <= i < k + n)%nat /\ forall j, (k <= j <= i)%nat -> stop j = false.
Proof.
  induction n as [|n IH]; intros k i; cbn [seq until].
  - split; [intros []|lia].
  - destruct (stop k) eqn:S.
    + split; [intros []|]. intros [L H]. rewrite H in S by lia. discriminate.
    + split.
      * intros [<-|H]; [split; [lia|]; intros j J; now replace j with k by lia|].
        apply IH in H. destruct H as [L H]. split; [lia|]. intros j J. destruct (Nat.eq_dec j k) as [->|]; [exact S|]. apply H. lia.
      * intros [L H]. destruct (Nat.eq_dec k i) as [->|N]; [now left|]. right. apply IH. split; [lia|]. intros j J. apply H. lia.
Qed.
Variable step : nat -> stats -> outcome stats.
Variable U : nat -> stats -> stats.
Lemma serial_fold term todo : forall s, (forall i s, In i (until todo) -> step i s = Ok (U i s)) ->
  serial stop step term todo s = Ended (term || existsb stop todo) (fold_left (fun s i => U i s) (until todo) s).
Proof.
  induction todo as [|i t IH]; intros s H; cbn [serial until existsb].
  - now rewrite orb_false_r.
  - cbn [until] in H. destruct (stop i); cbn [orb fold_left]; [now rewrite orb_true_r|]. rewrite H by now left.
    apply IH. intros k s' K. apply H. now right.
Qed.
Lemma parallel_fold todo : forall term s, (forall i s, In i todo -> stop i = false -> step i s = Ok (U i s)) ->
  parallel stop step term todo s = Ended (term || existsb stop todo) (fold_left (fun s i => U i s) (filter (fun i => negb (stop i)) todo) s).
Proof.
  induction todo as [|i t IH]; intros term s H; cbn [parallel filter existsb].
  - now rewrite orb_false_r.
  - destruct (stop i) eqn:S; cbn [orb negb fold_left].
    + rewrite IH by (intros; apply H; auto with datatypes). now rewrite orb_true_r.
    + rewrite H by auto with datatypes. apply IH. intros; apply H; auto with datatypes.
Qed.
End Loops.

(** ** Statistics of one location *)
Lemma entry_put m i j row : nth_error m i = Some row -> entry m i j = nth_error row j.
Proof. unfold entry. now intros ->. Qed.
Lemma zeros_row r c i : (i < r)%nat -> nth_error (zeros r c) i = Some (repeat (XF 0) c).
Proof. intros L. unfold zeros. rewrite nth_error_nth' with (d := repeat (XF 0) c) by (rewrite repeat_length; exact L). now rewrite nth_repeat. Qed.
Lemma repeat_at {A} (a : A) c j : (j < c)%nat -> nth_error (repeat a c) j = Some a.
Proof. intros L. rewrite nth_error_nth' with (d := a) by (rewrite repeat_length; exact L). now rewrite nth_repeat. Qed.
Lemma map_seq_at {A} (f : nat -> A) c j : (j < c)%nat -> nth_error (map f (seq 0 c)) j = Some (f j).
Proof. intros L. rewrite nth_error_map. rewrite nth_error_nth' with (d := 0%nat) by (rewrite seq_length; exact L). rewrite seq_nth by exact L. reflexivity. Qed.
Lemma shape_rows m r c : length m = r -> (forall i, (i < r)%nat -> exists row, nth_error m i = Some row /\ length row = c) -> shape m r c.
Proof.
  intros L H. split; [exact L|]. apply Forall_forall. intros row IN. apply In_nth_error in IN. destruct IN as [i E].
  assert (i < r)%nat by (rewrite <- L; apply nth_error_Some; congruence). destruct (H i H0) as (row' & E' & LR). congruence.
Qed.
Lemma quotient_entry a b i j x y : entry a i j = Some x -> entry b i j = Some y -> entry (quotient a b) i j = Some (xdiv x y).
Proof.
  unfold entry, quotient. intros A B. destruct (nth_error a i) as [ra|] eqn:EA; [|discriminate]. destruct (nth_error b i) as [rb|] eqn:EB; [|discriminate].
  assert (C : forall {X Y} (p : list X) (q : list Y) k u v, nth_error p k = Some u -> nth_error q k = Some v -> nth_error (combine p q) k = Some (u, v)).
  { induction p as [|u0 p IH]; intros q k u v P Q; destruct k; try discriminate; destruct q as [|v0 q]; try discriminate; cbn in *.
    - congruence.
    - now apply IH. }
  rewrite nth_error_map, (C _ _ a b i ra rb EA EB). cbn [option_map fst snd]. now rewrite nth_error_map, (C _ _ ra rb j x y A B).
Qed.
Lemma quotient_shape a b r c : shape a r c -> shape b r c -> shape (quotient a b) r c.
Proof.
  intros [LA FA] [LB FB]. unfold quotient. split.
  - rewrite map_length, combine_length. lia.
  - apply Forall_forall. intros row IN. apply in_map_iff in IN. destruct IN as ([u v] & <- & IN). rewrite map_length, combine_length. cbn [fst snd].
    rewrite Forall_forall in FA, FB. rewrite (FA u), (FB v); [lia|eapply in_combine_r; exact IN|eapply in_combine_l; exact IN].
Qed.
Lemma all_of_map {A B} (f : A -> outcome B) (h : A -> B) l : (forall a, In a l -> f a = Ok (h a)) -> all_of (map f l) = Ok (map h l).
Proof.
  induction l as [|a l IH]; intros H; cbn [map all_of]; [reflexivity|]. rewrite H by now left. cbn [obind].
  rewrite IH by (intros; apply H; now right). reflexivity.
Qed.
