From Coq Require Import Reals Bool List Arith Lia Lra Psatz Permutation Sorted.
From Verif Require Import Outcome XReal XRealFacts KernelModel KernelSpec RSort Sums DiagProofs GwssModel GwssSpec.
Import ListNotations.
Local Open Scope R_scope.

(** ** Sorted indices *)
Lemma column_length : forall n x, length (column n x) = n.
Proof. intros; unfold column; rewrite map_length, seq_length; reflexivity. Qed.
Lemma column_nth : forall n x j, (j < n)%nat -> nth j (column n x) 0 = x j.
Proof.
  intros n x j L; unfold column.
  rewrite nth_indep with (d' := x 0%nat) by (rewrite map_length, seq_length; exact L).
  rewrite map_nth, seq_nth by exact L. reflexivity.
Qed.
Lemma map_nth_seq : forall l : list R, map (fun i => nth i l 0) (seq 0 (length l)) = l.
Proof.
  intros l; apply nth_ext with (d := 0) (d' := 0); [rewrite map_length, seq_length; reflexivity|].
  intros i L; rewrite map_length, seq_length in L.
  rewrite nth_indep with (d' := nth 0 l 0) by (rewrite map_length, seq_length; exact L).
  rewrite (map_nth (fun i => nth i l 0)), seq_nth by exact L; reflexivity.
Qed.
Lemma map_sorted : forall (f : nat -> R) s, StronglySorted (fun i j => f i <= f j) s -> StronglySorted Rle (map f s).
Proof.
  intros f s H; induction H as [|i s' H IH F]; simpl; constructor; [exact IH|].
  apply Forall_map. exact F.
Qed.
Section S.
Variable sort_index : list R -> list nat.
Hypothesis SI : sorts_indices sort_index.
Lemma si_rsort : forall l, map (fun i => nth i l 0) (sort_index l) = rsort l.
Proof.
  intros l; destruct (SI l) as [P So]. apply sorted_unique.
  - apply map_sorted; exact So.
  - apply rsort_sorted.
  - rewrite (Permutation_map _ P), map_nth_seq. symmetry; apply rsort_perm.
Qed.
Lemma si_lt : forall l i, In i (sort_index l) -> (i < length l)%nat.
Proof. intros l i H; destruct (SI l) as [P _]. apply (Permutation_in _ P) in H. apply in_seq in H. lia. Qed.
Lemma si_length : forall l, length (sort_index l) = length l.
Proof. intros l; destruct (SI l) as [P _]. rewrite (Permutation_length P), seq_length; reflexivity. Qed.
Lemma INR_sorted : forall n a, StronglySorted Rle (map INR (seq a n)).
Proof.
  induction n as [|n IH]; intros a; simpl; constructor; [apply IH|].
  apply Forall_forall; intros x H. apply in_map_iff in H as [i [<- H]]. apply in_seq in H. apply le_INR; lia.
Qed.

(** ** rank *)
Lemma rank_inverse : forall l i, (i < length l)%nat ->
  nth (nth i (sort_index (map INR (sort_index l))) 0%nat) (sort_index l) 0%nat = i.
Proof.
  intros l i L. set (s := sort_index l). set (t := sort_index (map INR s)).
  assert (Ls : length s = length l) by apply si_length.
  assert (Lt : length t = length l) by (unfold t; rewrite si_length, map_length; exact Ls).
  assert (E : map (fun k => nth k (map INR s) 0) t = map INR (seq 0 (length l))).
  { unfold t; rewrite si_rsort. apply sorted_unique; [apply rsort_sorted|apply INR_sorted|].
    rewrite rsort_perm. apply Permutation_map. apply (SI l). }
  assert (Ei : nth i (map (fun k => nth k (map INR s) 0) t) 0 = nth i (map INR (seq 0 (length l))) 0) by (rewrite E; reflexivity).
  rewrite nth_indep with (d' := (fun k => nth k (map INR s) 0) 0%nat) in Ei by (rewrite map_length; lia).
  rewrite (map_nth (fun k => nth k (map INR s) 0)) in Ei.
  replace (nth i (map INR (seq 0 (length l))) 0) with (INR i) in Ei.
  2:{ rewrite nth_indep with (d' := INR 0) by (rewrite map_length, seq_length; lia).
      rewrite map_nth, seq_nth by lia. reflexivity. }
  change 0 with (INR 0) in Ei. rewrite map_nth in Ei. apply INR_eq in Ei. exact Ei.
Qed.

Lemma rank_nth : forall l j, (j < length l)%nat ->
  nth j (rank sort_index l) 0 = INR (nth j (sort_index (map INR (sort_index l))) 0%nat) + 1.
Proof.
  intros l j L; unfold rank; cbv zeta.
  rewrite nth_indep with (d' := INR 0%nat + 1).
  - rewrite (map_nth (fun k => INR k + 1)). reflexivity.
  - rewrite map_length, si_length, map_length, si_length. exact L.
Qed.

Lemma rank_bounds : forall l j, (j < length l)%nat ->
  INR (count_lt (nth j l 0) l) + 1 <= nth j (rank sort_index l) 0 <= INR (count_le (nth j l 0) l).
Proof.
  intros l j L. rewrite rank_nth by exact L. assert (I := rank_inverse l j L).
  set (s := sort_index l) in *. set (p := nth j (sort_index (map INR s)) 0%nat) in *.
  assert (Ls : length s = length l) by apply si_length.
  assert (Lp : (p < length s)%nat).
  { assert (H : In p (sort_index (map INR s))) by (apply nth_In; rewrite si_length, map_length; lia).
    apply si_lt in H; rewrite map_length in H; exact H. }
  assert (Es : nth_error s p = Some j) by (rewrite (nth_error_nth' s 0%nat Lp), I; reflexivity).
  assert (Er : nth_error (rsort l) p = Some (nth j l 0)).
  { rewrite <- (si_rsort l). fold s. exact (map_nth_error (fun i => nth i l 0) _ _ Es). }
  assert (A := sorted_count_lt _ _ _ (rsort_sorted l) Er).
  assert (B := sorted_count_le _ _ _ (rsort_sorted l) Er).
  rewrite (count_lt_perm _ _ _ (rsort_perm l)) in A. rewrite (count_le_perm _ _ _ (rsort_perm l)) in B.
  assert (C := le_INR _ _ A). assert (D := le_INR _ _ B). rewrite S_INR in D. lra.
Qed.

Lemma rank_perm : forall l, Permutation (rank sort_index l) (map INR (seq 1 (length l))).
Proof.
  intros l; unfold rank; cbv zeta.
  destruct (SI (map INR (sort_index l))) as [P _].
  rewrite (Permutation_map _ P), map_length, si_length, <- seq_shift, map_map.
  apply Permutation_refl'. apply map_ext; intros; rewrite S_INR; reflexivity.
Qed.

Lemma count_lt_le : forall a b l, a < b -> (count_le a l <= count_lt b l)%nat.
Proof. intros; apply count_le_lt; assumption. Qed.
Lemma rank_order : forall l i j, (i < length l)%nat -> (j < length l)%nat -> nth i l 0 < nth j l 0 ->
  nth i (rank sort_index l) 0 < nth j (rank sort_index l) 0.
Proof.
  intros l i j Li Lj H.
  destruct (rank_bounds l i Li) as [_ A]. destruct (rank_bounds l j Lj) as [B _].
  assert (C := le_INR _ _ (count_lt_le _ _ l H)). lra.
Qed.
Lemma count_le_distinct : forall l x, NoDup l -> In x l -> count_le x l = S (count_lt x l).
Proof.
  induction l as [|a t IH]; intros x N H; [destruct H|].
  inversion N as [|? ? Na Nt]; subst. unfold count_le, count_lt in *; simpl.
  destruct H as [->|H].
  - destruct (Rle_dec x x); [|lra]. destruct (Rlt_dec x x); [lra|]. simpl. f_equal.
    assert (E : forall y, In y t -> (if Rle_dec y x then true else false) = (if Rlt_dec y x then true else false)).
    { intros y Hy. assert (y <> x) by congruence. destruct (Rle_dec y x), (Rlt_dec y x); auto; lra. }
    clear -E. induction t as [|y t IH]; simpl; [reflexivity|].
    rewrite (E y (or_introl eq_refl)). destruct (Rlt_dec y x); simpl; rewrite IH; auto; intros; apply E; right; auto.
  - assert (a <> x) by congruence. specialize (IH x Nt H).
    destruct (Rle_dec a x), (Rlt_dec a x); simpl; try lia; lra.
Qed.
Lemma rank_distinct : forall l j, NoDup l -> (j < length l)%nat ->
  nth j (rank sort_index l) 0 = INR (count_lt (nth j l 0) l) + 1.
Proof.
  intros l j N L. destruct (rank_bounds l j L) as [A B].
  rewrite (count_le_distinct l _ N (nth_In _ _ L)), S_INR in B. lra.
Qed.

(** ** findq *)
Lemma cumsum_nth : forall l a i c, nth_error (cumsum_from a l) i = Some c <->
  (i < length l)%nat /\ c = a + lsum (firstn (S i) l).
Proof.
  induction l as [|x t IH]; intros a i c.
  - simpl. destruct i; simpl; split; intros H; try discriminate; destruct H; lia.
  - destruct i as [|i].
    + cbn [cumsum_from nth_error firstn lsum fold_right length]. split.
      * intros H; injection H as <-. split; [lia|]. unfold lsum; simpl; ring.
      * intros [_ ->]. f_equal. unfold lsum; simpl; ring.
    + cbn [cumsum_from nth_error length]. rewrite IH.
      change (lsum (firstn (S (S i)) (x :: t))) with (x + lsum (firstn (S i) t)).
      split; intros [L E]; (split; [lia|rewrite E; ring]).
Qed.
Lemma cumsum_length : forall l a, length (cumsum_from a l) = length l.
Proof. induction l; intros; simpl; auto. Qed.

Lemma first_above_some : forall k cum i, first_above k cum = Some i ->
  (exists c, nth_error cum i = Some c /\ k < c) /\ forall i' c, (i' < i)%nat -> nth_error cum i' = Some c -> c <= k.
Proof.
  induction cum as [|c t IH]; intros i; simpl; [discriminate|].
  destruct (Rltb k c) eqn:E.
  - intros H; injection H as <-. apply Rltb_true in E. split; [exists c; auto|intros; lia].
  - apply Rltb_false in E. destruct (first_above k t) as [i0|] eqn:F; simpl; [|discriminate].
    intros H; injection H as <-. destruct (IH i0 eq_refl) as [A B]. split; [exact A|].
    intros [|i'] c' L H; simpl in H; [injection H as <-; exact E|apply (B i'); [lia|exact H]].
Qed.
Lemma first_above_none : forall k cum, first_above k cum = None ->
  forall i' c, nth_error cum i' = Some c -> c <= k.
Proof.
  induction cum as [|c t IH]; simpl; intros F [|i'] c' H; try discriminate.
  - simpl in H; injection H as <-. destruct (Rltb k c) eqn:E; [discriminate|]. apply Rltb_false in E; exact E.
  - simpl in H. destruct (Rltb k c); [discriminate|]. destruct (first_above k t); [discriminate|].
    eapply IH; eauto.
Qed.
Lemma first_above_mono : forall k k' cum, k <= k' ->
  match first_above k' cum with
  | Some i' => exists i, first_above k cum = Some i /\ (i <= i')%nat
  | None => True
  end.
Proof.
  intros k k' cum L; induction cum as [|c t IH]; simpl; [exact I|].
  destruct (Rltb k' c) eqn:E'.
  - apply Rltb_true in E'. assert (E : Rltb k c = true) by (apply Rltb_true; lra). rewrite E. exists 0%nat; auto.
  - destruct (first_above k' t) as [i'|]; simpl; [|exact I].
    destruct (Rltb k c); [exists 0%nat; split; [reflexivity|lia]|].
    destruct IH as [i [-> Li]]. exists (S i); split; [reflexivity|lia].
Qed.

(* position read by quantile_at *)
Definition cond (cum : list R) (k : R) : option nat :=
  match first_above k cum with
  | None => match length cum with O => None | S m => Some m end
  | Some O => None
  | Some (S i) => Some i
  end.
Lemma quantile_cond : forall xo cum k, length xo = length cum -> quantile_at xo cum k =
  match cond cum k with Some i => match nth_error xo i with Some v => Ok v | None => UB end | None => UB end.
Proof.
  intros xo cum k _; unfold quantile_at, cond; cbv zeta.
  destruct (first_above k cum) as [[|i]|]; auto. destruct (length cum); reflexivity.
Qed.
Lemma cond_lt : forall cum k i, cond cum k = Some i -> (i < length cum)%nat.
Proof.
  intros cum k i; unfold cond. destruct (first_above k cum) as [[|i0]|] eqn:F; try discriminate.
  - intros H; injection H as <-. destruct (first_above_some _ _ _ F) as [[c [A _]] _].
    assert (nth_error cum (S i0) <> None) by congruence. apply nth_error_Some in H. lia.
  - destruct (length cum); [discriminate|]. intros H; injection H as <-; lia.
Qed.
Lemma cond_spec : forall cum k i, cond cum k = Some i ->
  (forall c, nth_error cum i = Some c -> c <= k) /\ (forall c, nth_error cum (S i) = Some c -> k < c).
Proof.
  intros cum k i; unfold cond. destruct (first_above k cum) as [[|i0]|] eqn:F; try discriminate.
  - intros H; injection H as <-. destruct (first_above_some _ _ _ F) as [[c [A B]] C]. split.
    + intros c' H; apply (C i0); [lia|exact H].
    + intros c' H; rewrite A in H; injection H as <-; exact B.
  - destruct (length cum) eqn:E; [discriminate|]. intros H; injection H as <-. split.
    + intros c H; eapply first_above_none; eauto.
    + intros c H. assert (nth_error cum (S n) <> None) by congruence. apply nth_error_Some in H0. lia.
Qed.
Lemma cond_mono : forall cum k k' i i', k <= k' -> cond cum k = Some i -> cond cum k' = Some i' -> (i <= i')%nat.
Proof.
  intros cum k k' i i' L H H'. assert (M := first_above_mono k k' cum L).
  assert (Li := cond_lt _ _ _ H).
  unfold cond in H, H'. destruct (first_above k' cum) as [[|a]|]; try discriminate.
  - injection H' as <-. destruct M as [b [E Lb]]. rewrite E in H. destruct b; [discriminate|]. injection H as <-; lia.
  - destruct (length cum) eqn:E; [discriminate|]. injection H' as <-. lia.
Qed.
Lemma cond_total : forall cum k c, nth_error cum 0 = Some c -> c <= k -> exists i, cond cum k = Some i.
Proof.
  intros cum k c H L; unfold cond. destruct cum as [|c0 t]; [discriminate|]. injection H as ->.
  destruct (first_above k (c :: t)) as [[|i]|] eqn:F; simpl; eauto.
  destruct (first_above_some _ _ _ F) as [[c' [A B]] _]. simpl in A; injection A as <-. lra.
Qed.
Lemma cond_none : forall cum k c, nth_error cum 0 = Some c -> k < c -> cond cum k = None.
Proof.
  intros cum k c H L; unfold cond. destruct cum as [|c0 t]; [discriminate|]. injection H as ->. simpl.
  assert (E : Rltb k c = true) by (apply Rltb_true; exact L). rewrite E. reflexivity.
Qed.

Section Q.
Variables (n : nat) (x w : nat -> R).
Local Notation xs := (column n x).
Local Notation s := (sort_index xs).
Local Notation cum := (cumsum (map w s)).
Lemma s_lt : forall i, In i s -> (i < n)%nat.
Proof. intros i H; apply si_lt in H; rewrite column_length in H; exact H. Qed.
Lemma s_len : length s = n.
Proof. rewrite si_length, column_length; reflexivity. Qed.
Lemma xo_eq : rsort xs = map x s.
Proof.
  rewrite <- (si_rsort xs). apply map_ext_in; intros i H. apply column_nth, s_lt, H.
Qed.
Lemma s_sorted : StronglySorted Rle (map x s).
Proof. rewrite <- xo_eq; apply rsort_sorted. Qed.
Lemma s_all : forall j, (j < n)%nat -> In j s.
Proof.
  intros j L; destruct (SI xs) as [P _]. apply (Permutation_in _ (Permutation_sym P)).
  rewrite column_length; apply in_seq; lia.
Qed.
Lemma cum_len : length cum = n.
Proof. unfold cumsum; rewrite cumsum_length, map_length; apply s_len. Qed.
Lemma weight_list : forall P, weight_where n x w P = lsum (map (fun i => if P (x i) then w i else 0) s).
Proof.
  intros P; unfold weight_where. rewrite bigsum_seq, <- sumloop_lsum.
  apply sumloop_perm. destruct (SI xs) as [Q _]. rewrite column_length in Q. symmetry; exact Q.
Qed.
Lemma lsum_le : forall (f g : nat -> R) l, (forall i, In i l -> f i <= g i) -> lsum (map f l) <= lsum (map g l).
Proof.
  intros f g l H; induction l as [|i t IH]; simpl; [lra|].
  assert (A := H i (or_introl eq_refl)). assert (B := IH (fun j Hj => H j (or_intror Hj))). unfold lsum in *; simpl; lra.
Qed.
Lemma lsum_nonneg : forall (f : nat -> R) l, (forall i, In i l -> 0 <= f i) -> 0 <= lsum (map f l).
Proof.
  intros f l H; induction l as [|i t IH]; simpl; [unfold lsum; simpl; lra|].
  assert (A := H i (or_introl eq_refl)). assert (B := IH (fun j Hj => H j (or_intror Hj))). unfold lsum in *; simpl; lra.
Qed.
Lemma sorted_split : forall s1 i s2, s = s1 ++ i :: s2 ->
  (forall j, In j s1 -> x j <= x i) /\ (forall j, In j s2 -> x i <= x j).
Proof.
  intros s1 i s2 E. assert (So := s_sorted). rewrite E, map_app in So. simpl in So.
  split; intros j H.
  - clear E. induction s1 as [|a t IH]; [destruct H|]. simpl in So. inversion So as [|? ? S1 F1]; subst.
    destruct H as [->|H]; [|apply IH; auto].
    rewrite Forall_forall in F1. apply F1. apply in_or_app; right; left; reflexivity.
  - clear E. induction s1 as [|a t IH]; simpl in So.
    + inversion So as [|? ? S1 F1]; subst. rewrite Forall_forall in F1. apply F1, in_map, H.
    + inversion So; subst; apply IH; auto.
Qed.

Lemma quantile_meaning : forall k q, (forall j, (j < n)%nat -> 0 <= w j) -> quantile_at (rsort xs) cum k = Ok q ->
  (exists j, (j < n)%nat /\ q = x j) /\
  weight_where n x w (fun v => Rltb v q) <= k /\
  (forall j, (j < n)%nat -> q < x j -> k < weight_where n x w (fun v => Rleb v (x j))).
Proof.
  intros k q Hw. rewrite quantile_cond by (rewrite rsort_length, column_length, cum_len; reflexivity).
  destruct (cond cum k) as [i|] eqn:C; [|discriminate].
  assert (Li := cond_lt _ _ _ C). rewrite cum_len in Li.
  destruct (cond_spec _ _ _ C) as [C1 C2].
  rewrite xo_eq.
  assert (Ls : (i < length s)%nat) by (rewrite s_len; exact Li).
  destruct (nth_error s i) as [i0|] eqn:Es; [|apply nth_error_None in Es; lia].
  rewrite (map_nth_error x _ _ Es). intros Hq; injection Hq as <-.
  destruct (nth_error_split _ _ Es) as [s1 [s2 [E L1]]].
  destruct (sorted_split _ _ _ E) as [B1 B2].
  assert (Hin : forall j, In j s1 \/ j = i0 \/ In j s2 -> (j < n)%nat).
  { intros j H; apply s_lt. rewrite E. apply in_or_app. destruct H as [H|[H|H]]; [left|right; left|right; right]; auto. }
  split; [exists i0; split; [apply Hin; auto|reflexivity]|].
  assert (Hc : forall c, nth_error cum i = Some c <-> c = lsum (map w (s1 ++ [i0]))).
  { intros c. unfold cumsum. rewrite cumsum_nth, map_length.
    assert (F : firstn (S i) (map w s) = map w (s1 ++ [i0])).
    { rewrite E, firstn_map. f_equal. rewrite firstn_app, <- L1.
      rewrite firstn_all2 by lia. replace (S (length s1) - length s1)%nat with 1%nat by lia. reflexivity. }
    rewrite F. split; [intros [_ ->]; ring|intros ->; split; [exact Ls|ring]]. }
  split.
  - rewrite weight_list. assert (K := C1 _ (proj2 (Hc _) eq_refl)).
    rewrite map_app, lsum_app in K. rewrite E, map_app, lsum_app. cbn [map].
    change (lsum (?a :: ?l)) with (a + lsum l).
    assert (X1 : lsum (map (fun i => if Rltb (x i) (x i0) then w i else 0) s1) <= lsum (map w s1)).
    { apply lsum_le; intros j H. destruct (Rltb (x j) (x i0)); [lra|]. apply Hw, Hin; auto. }
    assert (X2 : lsum (map (fun i => if Rltb (x i) (x i0) then w i else 0) s2) <= 0).
    { apply Rle_trans with (lsum (map (fun _ => 0) s2)).
      - apply lsum_le; intros j H. destruct (Rltb (x j) (x i0)) eqn:T; [|lra]. apply Rltb_true in T. specialize (B2 j H); lra.
      - clear. induction s2; unfold lsum in *; simpl; lra. }
    assert (X3 : Rltb (x i0) (x i0) = false) by (apply Rltb_false; lra).
    rewrite X3. assert (X4 := Hw i0 (Hin i0 (or_intror (or_introl eq_refl)))).
    cbn [map] in K. unfold lsum at 2 in K; cbn [fold_right] in K. unfold lsum at 2; cbn [fold_right]. fold lsum.
    unfold lsum in X2. lra.
  - intros j Lj Hj.
    assert (J2 : In j s2).
    { assert (J := s_all j Lj). rewrite E in J. apply in_app_or in J as [J|[J|J]]; [specialize (B1 j J); lra|subst; lra|exact J]. }
    destruct s2 as [|i1 s3]; [destruct J2|].
    assert (B3 : x i1 <= x j).
    { destruct J2 as [->|J2]; [lra|]. assert (E' : s = (s1 ++ [i0]) ++ i1 :: s3) by (rewrite <- app_assoc; exact E).
      destruct (sorted_split _ _ _ E') as [_ B]. apply B; exact J2. }
    assert (K : k < lsum (map w (s1 ++ [i0; i1]))).
    { apply C2. unfold cumsum. rewrite cumsum_nth, map_length. split.
      - rewrite E, app_length; simpl; lia.
      - assert (F : firstn (S (S i)) (map w s) = map w (s1 ++ [i0; i1])).
        { rewrite E, firstn_map. f_equal. rewrite firstn_app, <- L1.
          rewrite firstn_all2 by lia. replace (S (S (length s1)) - length s1)%nat with 2%nat by lia. reflexivity. }
        rewrite F; ring. }
    rewrite weight_list. replace s with ((s1 ++ [i0; i1]) ++ s3) by (rewrite <- app_assoc, E; reflexivity).
    rewrite map_app, lsum_app.
    assert (Y1 : lsum (map w (s1 ++ [i0; i1])) <= lsum (map (fun i => if Rleb (x i) (x j) then w i else 0) (s1 ++ [i0; i1]))).
    { apply lsum_le; intros m H. assert (T : Rleb (x m) (x j) = true).
      { apply Rleb_true. apply in_app_or in H as [H|[H|[H|[]]]]; [specialize (B1 m H); lra|subst; lra|subst; exact B3]. }
      rewrite T; lra. }
    assert (Y2 : 0 <= lsum (map (fun i => if Rleb (x i) (x j) then w i else 0) s3)).
    { apply lsum_nonneg; intros m H. destruct (Rleb (x m) (x j)); [|lra]. apply Hw, Hin. right; right; right; exact H. }
    lra.
Qed.

Lemma cum_head : (0 < n)%nat -> exists j, (j < n)%nat /\ (forall k, (k < n)%nat -> x j <= x k) /\ nth_error cum 0 = Some (w j).
Proof.
  intros L. assert (Ls := s_len). destruct s as [|j t] eqn:E; [simpl in Ls; lia|].
  exists j. split; [apply s_lt; rewrite E; left; reflexivity|]. split.
  - intros k Lk. assert (J := s_all k Lk). destruct (sorted_split [] j t E) as [_ B].
    rewrite E in J. destruct J as [->|J]; [lra|apply B, J].
  - cbn. f_equal; ring.
Qed.

Lemma read_ok : forall k i, cond cum k = Some i -> exists q, nth_error (rsort xs) i = Some q /\ quantile_at (rsort xs) cum k = Ok q.
Proof.
  intros k i C. assert (L := cond_lt _ _ _ C). rewrite cum_len in L.
  destruct (nth_error (rsort xs) i) as [q|] eqn:E.
  - exists q; split; [reflexivity|]. rewrite quantile_cond by (rewrite rsort_length, column_length, cum_len; reflexivity).
    rewrite C, E; reflexivity.
  - apply nth_error_None in E. rewrite rsort_length, column_length in E. lia.
Qed.

Lemma findq_ok : (0 < n)%nat ->
  (forall j, (j < n)%nat -> (forall k, (k < n)%nat -> x j <= x k) -> w j <= 1 / 4) ->
  exists q1 q2 q3, findq sort_index n x w = Ok (q1, q2, q3) /\ q1 <= q2 <= q3 /\
    quantile_at (rsort xs) cum (1 / 4) = Ok q1 /\ quantile_at (rsort xs) cum (2 / 4) = Ok q2 /\ quantile_at (rsort xs) cum (3 / 4) = Ok q3.
Proof.
  intros L H. destruct (cum_head L) as [j [Lj [Hj Ej]]]. specialize (H j Lj Hj).
  destruct (cond_total cum (1/4) _ Ej H) as [i1 C1].
  destruct (cond_total cum (2/4) _ Ej) as [i2 C2]; [lra|].
  destruct (cond_total cum (3/4) _ Ej) as [i3 C3]; [lra|].
  destruct (read_ok _ _ C1) as [q1 [E1 Q1]]. destruct (read_ok _ _ C2) as [q2 [E2 Q2]]. destruct (read_ok _ _ C3) as [q3 [E3 Q3]].
  exists q1, q2, q3. unfold findq; cbv zeta. rewrite Q1, Q2, Q3.
  assert (M12 := cond_mono cum (1/4) (2/4) _ _ ltac:(lra) C1 C2).
  assert (M23 := cond_mono cum (2/4) (3/4) _ _ ltac:(lra) C2 C3).
  split; [reflexivity|]. split; [|auto].
  split; [exact (sorted_mono _ _ _ _ _ (rsort_sorted _) M12 E1 E2)|exact (sorted_mono _ _ _ _ _ (rsort_sorted _) M23 E2 E3)].
Qed.
Lemma findq_ub : (0 < n)%nat ->
  (forall j, (j < n)%nat -> (forall k, (k < n)%nat -> x j <= x k) -> 1 / 4 < w j) -> findq sort_index n x w = UB.
Proof.
  intros L H. destruct (cum_head L) as [j [Lj [Hj Ej]]]. specialize (H j Lj Hj).
  unfold findq; cbv zeta. rewrite quantile_cond by (rewrite rsort_length, column_length, cum_len; reflexivity).
  rewrite (cond_none cum (1/4) _ Ej H). reflexivity.
Qed.
End Q.
End S.
