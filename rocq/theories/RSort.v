(** Insertion sort on reals and order statistics: generic facts. *)
From Coq Require Import Reals Bool List ZArith Lra Lia Psatz Permutation Sorted.
From Verif Require Import XReal XRealFacts KernelModel KernelSpec.
Import ListNotations.
Local Open Scope R_scope.

Fixpoint rinsert (x : R) (l : list R) : list R :=
  match l with
  | [] => [x]
  | y :: l' => if Rleb x y then x :: l else y :: rinsert x l'
  end.
Fixpoint rsort (l : list R) : list R :=
  match l with [] => [] | x :: l' => rinsert x (rsort l') end.

Lemma xinsert_val x r xs rs : xval x = Some r -> xvals xs rs ->
  xvals (xinsert x xs) (rinsert r rs).
Proof.
  revert rs; induction xs; intros [|s rs] Hx H; try discriminate; simpl.
  - apply xvals_cons; auto.
  - apply xvals_inv in H as [H1 H2]. rewrite (xleb_val _ _ _ _ Hx H1).
    destruct (Rleb r s); repeat apply xvals_cons; auto.
Qed.
Lemma xisort_val xs rs : xvals xs rs -> xvals (xisort xs) (rsort rs).
Proof.
  revert rs; induction xs; intros [|s rs] H; try discriminate; simpl; auto.
  apply xvals_inv in H as [H1 H2]. apply xinsert_val; auto.
Qed.

Lemma rinsert_perm x l : Permutation (rinsert x l) (x :: l).
Proof.
  induction l; simpl; auto. destruct (Rleb x a); auto.
  rewrite IHl. apply perm_swap.
Qed.
Lemma rsort_perm l : Permutation (rsort l) l.
Proof. induction l; simpl; auto. rewrite rinsert_perm. auto. Qed.
Lemma rsort_length l : length (rsort l) = length l.
Proof. apply Permutation_length, rsort_perm. Qed.

Lemma rinsert_sorted x l : StronglySorted Rle l -> StronglySorted Rle (rinsert x l).
Proof.
  induction 1; simpl.
  - repeat constructor.
  - destruct (Rleb x a) eqn:E.
    + apply Rleb_true in E. constructor; [constructor; auto|].
      constructor; auto. eapply Forall_impl; [|exact H0]. simpl; intros; lra.
    + apply Rleb_false in E. constructor; auto.
      eapply (Permutation_Forall (Permutation_sym (rinsert_perm x l))).
      constructor; auto; lra.
Qed.
Lemma rsort_sorted l : StronglySorted Rle (rsort l).
Proof. induction l; simpl; [constructor|apply rinsert_sorted; auto]. Qed.

Lemma sorted_unique l l' : StronglySorted Rle l -> StronglySorted Rle l' ->
  Permutation l l' -> l = l'.
Proof.
  intros H; revert l'; induction H; intros l' H' P.
  - apply Permutation_nil in P. auto.
  - destruct l' as [|b l']; [symmetry in P; apply Permutation_nil in P; discriminate|].
    inversion H' as [|? ? S' F']; subst.
    assert (a = b).
    { apply Rle_antisym.
      - assert (In b (a :: l)) as I by (eapply Permutation_in; [symmetry; exact P|simpl; auto]).
        destruct I as [->|I]; [lra|]. rewrite Forall_forall in H0; auto.
      - assert (In a (b :: l')) as I by (eapply Permutation_in; [exact P|simpl; auto]).
        destruct I as [->|I]; [lra|]. rewrite Forall_forall in F'; auto. }
    subst. f_equal. apply IHStronglySorted; auto. eapply Permutation_cons_inv; eauto.
Qed.

Lemma rsort_permute l l' : Permutation l l' -> rsort l = rsort l'.
Proof.
  intros P. apply sorted_unique; try apply rsort_sorted.
  rewrite rsort_perm, P. symmetry; apply rsort_perm.
Qed.

(** Counting through permutations. *)
Lemma filter_perm {A} (f : A -> bool) l l' : Permutation l l' ->
  Permutation (filter f l) (filter f l').
Proof.
  induction 1; simpl; auto.
  - destruct (f x); auto.
  - destruct (f x), (f y); auto. apply perm_swap.
  - etransitivity; eauto.
Qed.
Lemma count_lt_perm t l l' : Permutation l l' -> count_lt t l = count_lt t l'.
Proof. intros; unfold count_lt; apply Permutation_length, filter_perm; auto. Qed.
Lemma count_le_perm t l l' : Permutation l l' -> count_le t l = count_le t l'.
Proof. intros; unfold count_le; apply Permutation_length, filter_perm; auto. Qed.
Lemma count_zero_perm l l' : Permutation l l' -> count_zero l = count_zero l'.
Proof. intros; unfold count_zero; apply Permutation_length, filter_perm; auto. Qed.

Lemma filter_length_le' {A} (f : A -> bool) l : (length (filter f l) <= length l)%nat.
Proof. induction l; simpl; auto. destruct (f a); simpl; lia. Qed.

(** In a sorted list, entry [i] bounds the counts. *)
Lemma sorted_count_lt l i x : StronglySorted Rle l -> nth_error l i = Some x ->
  (count_lt x l <= i)%nat.
Proof.
  intros H; revert i; induction H; intros [|i] E; simpl in E; try discriminate.
  - inversion E; subst. unfold count_lt; simpl.
    destruct (Rlt_dec x x); [lra|].
    assert (filter (fun y => if Rlt_dec y x then true else false) l = []) as ->; auto.
    clear -H0. induction H0; simpl; auto. destruct (Rlt_dec x0 x); [lra|auto].
  - specialize (IHStronglySorted _ E). unfold count_lt in *; simpl.
    destruct (Rlt_dec a x); simpl; lia.
Qed.
Lemma sorted_count_le l i x : StronglySorted Rle l -> nth_error l i = Some x ->
  (S i <= count_le x l)%nat.
Proof.
  intros H; revert i; induction H; intros [|i] E; simpl in E; try discriminate.
  - inversion E; subst. unfold count_le; simpl. destruct (Rle_dec x x); simpl; [lia|lra].
  - assert (In x l) by (eapply nth_error_In; eauto).
    rewrite Forall_forall in H0. specialize (H0 _ H1).
    specialize (IHStronglySorted _ E). unfold count_le in *; simpl.
    destruct (Rle_dec a x); simpl; [lia|lra].
Qed.
Lemma sorted_mono l i j x y : StronglySorted Rle l -> (i <= j)%nat ->
  nth_error l i = Some x -> nth_error l j = Some y -> x <= y.
Proof.
  intros H; revert i j; induction H; intros [|i] [|j] L E E'; simpl in *; try discriminate; try lia.
  - inversion E; inversion E'; subst; lra.
  - inversion E; subst. apply nth_error_In in E'. rewrite Forall_forall in H0; auto.
  - eapply (IHStronglySorted i j); eauto; lia.
Qed.

Lemma rsort_kth l i x : nth_error (rsort l) i = Some x -> kth_smallest (S i) l x.
Proof.
  intros E. split.
  - eapply Permutation_in; [apply rsort_perm|]. eapply nth_error_In; eauto.
  - rewrite <- (count_lt_perm x _ _ (rsort_perm l)), <- (count_le_perm x _ _ (rsort_perm l)).
    pose proof (sorted_count_lt _ _ _ (rsort_sorted l) E).
    pose proof (sorted_count_le _ _ _ (rsort_sorted l) E). lia.
Qed.

Lemma count_lt_mono x y l : x <= y -> (count_lt x l <= count_lt y l)%nat.
Proof.
  intros; unfold count_lt; induction l; simpl; auto.
  destruct (Rlt_dec a x), (Rlt_dec a y); simpl; try lia; lra.
Qed.
Lemma count_le_lt x y l : x < y -> (count_le x l <= count_lt y l)%nat.
Proof.
  intros; unfold count_lt, count_le; induction l; simpl; auto.
  destruct (Rle_dec a x), (Rlt_dec a y); simpl; try lia; lra.
Qed.

(** The k-th smallest entry is unique and monotone in k. *)
Lemma kth_mono k k' l x y : (k <= k')%nat -> kth_smallest k l x -> kth_smallest k' l y -> x <= y.
Proof.
  intros L [_ [A B]] [_ [C D]]. destruct (Rle_dec x y) as [|N]; auto.
  apply Rnot_le_lt in N. pose proof (count_le_lt _ _ l N). lia.
Qed.
Lemma kth_unique k l x y : kth_smallest k l x -> kth_smallest k l y -> x = y.
Proof. intros; apply Rle_antisym; eapply kth_mono; eauto. Qed.
Lemma kth_nth k l x : (0 < k)%nat -> kth_smallest k l x -> nth_error (rsort l) (k - 1) = Some x.
Proof.
  intros Hk Hx. destruct (nth_error (rsort l) (k - 1)) eqn:E.
  - apply rsort_kth in E. replace (S (k - 1)) with k in E by lia. f_equal; eapply kth_unique; eauto.
  - apply nth_error_None in E. rewrite rsort_length in E. destruct Hx as [_ [_ B]].
    unfold count_le in B. pose proof (filter_length_le' (fun y => if Rle_dec y x then true else false) l). lia.
Qed.
