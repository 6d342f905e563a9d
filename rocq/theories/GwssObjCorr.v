(** Proofs for C168: the results of correlations, and failures. *)
From Coq Require Import Reals Bool List Arith Lia Lra Permutation.
From Verif Require Import Outcome XReal XRealFacts RSort Sums DiagModel DiagProofs GwssModel GwssSpec GwssProofs GwssCases GwssValues GwssObjModel GwssObjSpec GwssObjProofs GwssObjMain.
Import ListNotations.
Local Open Scope R_scope.

Section Obj.
Variable sort_index : list R -> list nat.
Hypothesis SI : sorts_indices sort_index.
Variable stop : nat -> bool.
Variable o : obj.
Notation d := (o_data o).
Notation n := (o_locs o).
Hypothesis ROWS : n = d_rows d.
Hypothesis VARS : (2 <= d_vars d)%nat.

Variable pairs : list (nat * nat).
Hypothesis PIN : forall j k, In (j, k) pairs <-> (j < k < d_vars d)%nat /\ (o_first o = true -> j = 0%nat).
Hypothesis PLEN : length pairs = corr_cols (o_first o) (d_vars d).
Hypothesis PROW : forall f, corr_row (o_first o) (d_vars d) f = Ok (map (fun p => f (fst p) (snd p)) pairs).

Definition prow (f : nat -> (nat -> R) -> (nat -> R) -> (nat -> R) -> xd) (i : nat) : list xd :=
  map (fun p => match normalise (d_rows d) (o_weight o i) with Some W => f (d_rows d) (d_x d (fst p)) (d_x d (snd p)) W | None => XN end) pairs.
Definition Uc (i : nat) (s : stats) : stats :=
  let m := fun f => moments d (o_weight o i) f in
  mkStats (put i (m (fun n W x => XF (gw_mean n W x))) (s_mean s)) (s_sd s) (s_skew s) (s_cv s)
    (put i (m (fun n W x => XF (gw_var n W x))) (s_var s)) (s_median s) (s_iqr s) (s_qi s)
    (put i (prow covwt i) (s_cov s)) (put i (prow corr i) (s_corr s)) (put i (prow (spearman sort_index) i) (s_scorr s)).
Lemma correlation_ok i s : correlation_at sort_index o i s = Ok (Uc i s).
Proof. unfold correlation_at, pairwise. rewrite (proj2 (Nat.eqb_eq _ _) ROWS). cbn [negb]. rewrite !PROW. reflexivity. Qed.

Lemma rank_ranks x : ranks n x (fun i => nth i (rank sort_index (map x (seq 0 n))) 0).
Proof.
  destruct (C61_main sort_index SI (map x (seq 0 n))) as (P & O & _). rewrite map_length, seq_length in P, O.
  assert (L : length (rank sort_index (map x (seq 0 n))) = n) by (rewrite (Permutation_length P), map_length, seq_length; reflexivity).
  split.
  - assert (E : map (fun i => nth i (rank sort_index (map x (seq 0 n))) 0) (seq 0 n) = rank sort_index (map x (seq 0 n))).
    { revert L. generalize (rank sort_index (map x (seq 0 n))). clear. intros l L. rewrite <- L.
      apply nth_ext with (d := 0) (d' := 0); [now rewrite map_length, seq_length|]. intros k K. rewrite map_length, seq_length in K.
      apply nth_error_nth. now rewrite map_seq_at by exact K. }
    now rewrite E.
  - assert (N : forall i, (i < n)%nat -> nth i (map x (seq 0 n)) 0 = x i).
    { intros i I. rewrite (nth_indep _ 0 (x 0%nat)) by (now rewrite map_length, seq_length). now rewrite map_nth, seq_nth. }
    intros i k I K X. apply O; [exact I|exact K|]. now rewrite !N.
Qed.
Lemma wcov_C59 w a b : bigsum n (fun j => w j * ((a j - bigsum n (fun j => w j * a j) / bigsum n w) * (b j - bigsum n (fun j => w j * b j) / bigsum n w))) / bigsum n w = wcov n w a b.
Proof. reflexivity. Qed.

Lemma correlation_main order : o_calc o = calculator_of (o_par o) (o_mode o) -> o_mode o = Correlation ->
  Permutation order (seq 0 n) ->
  (forall i, (i < n)%nat -> worked (o_par o) stop i -> proper_weights n (o_weight o i)) ->
  exists o', run sort_index stop false order o = Returns o' /\ same_settings o o' /\
    (o_term o' = true <-> o_term o = true \/ exists i, (i < n)%nat /\ stop i = true) /\
    (shape (s_mean (o_stats o')) n (d_vars d) /\ shape (s_var (o_stats o')) n (d_vars d) /\ shape (s_cov (o_stats o')) n (length pairs) /\
     shape (s_corr (o_stats o')) n (length pairs) /\ shape (s_scorr (o_stats o')) n (length pairs)) /\
    (forall i j, (i < n)%nat -> (j < d_vars d)%nat ->
       (worked (o_par o) stop i -> has (s_mean (o_stats o')) i j (wmean n (o_weight o i) (d_x d j)) /\
          has (s_var (o_stats o')) i j (wcov n (o_weight o i) (d_x d j) (d_x d j))) /\
       (~ worked (o_par o) stop i -> has (s_mean (o_stats o')) i j 0 /\ has (s_var (o_stats o')) i j 0)) /\
    (forall i t j k, (i < n)%nat -> nth_error pairs t = Some (j, k) ->
       (worked (o_par o) stop i -> correlations n (o_weight o i) (d_x d j) (d_x d k) (o_stats o') i t) /\
       (~ worked (o_par o) stop i -> has (s_cov (o_stats o')) i t 0 /\ has (s_corr (o_stats o')) i t 0 /\ has (s_scorr (o_stats o')) i t 0)) /\
    s_sd (o_stats o') = s_sd (o_stats o) /\ s_skew (o_stats o') = s_skew (o_stats o) /\ s_cv (o_stats o') = s_cv (o_stats o) /\
    s_median (o_stats o') = s_median (o_stats o) /\ s_iqr (o_stats o') = s_iqr (o_stats o) /\ s_qi (o_stats o') = s_qi (o_stats o).
Proof.
  intros CA MO P PW.
  assert (LP := loops stop (o_par o) order n (correlation_at sort_index o) Uc (prepare o) (o_term o) P (fun i s _ _ => correlation_ok i s)).
  set (L := done_locs stop (o_par o) order n) in *.
  assert (INL : forall i, In i L <-> (i < n)%nat /\ worked (o_par o) stop i) by (intros i; apply in_done; exact P).
  set (sF := fold_left (fun s i => Uc i s) L (prepare o)) in *.
  set (tF := (o_term o || existsb stop (seq 0 n))%bool) in *.
  assert (RUN : run sort_index stop false order o = Returns (set_term tF (set_stats sF o))).
  { unfold run, summarise. rewrite CA, MO, (proj2 (Nat.leb_le _ _) VARS). destruct (o_par o); cbn [calculator_of]; rewrite LP; reflexivity. }
  assert (ROWSOF : forall g Rw c, (forall i s, g (Uc i s) = put i (Rw i) (g s)) -> g (prepare o) = zeros n c -> (forall i, length (Rw i) = c) ->
    shape (g sF) n c /\ (forall i, (i < n)%nat -> worked (o_par o) stop i -> nth_error (g sF) i = Some (Rw i)) /\
    (forall i, (i < n)%nat -> ~ worked (o_par o) stop i -> nth_error (g sF) i = Some (repeat (XF 0) c))).
  { intros g Rw c PU Z LR. destruct (fold_put Uc g Rw PU L (prepare o)) as (A & B & C).
    - intros i I. rewrite Z. unfold zeros. rewrite repeat_length. now apply INL.
    - fold sF in A, B, C.
      assert (B' : forall i, (i < n)%nat -> worked (o_par o) stop i -> nth_error (g sF) i = Some (Rw i)) by (intros i I W; apply B; apply INL; auto).
      assert (C' : forall i, (i < n)%nat -> ~ worked (o_par o) stop i -> nth_error (g sF) i = Some (repeat (XF 0) c)).
      { intros i I W. rewrite C by (intros D; apply INL in D; tauto). rewrite Z. now apply zeros_row. }
      split; [|auto]. apply shape_rows; [rewrite A, Z; unfold zeros; apply repeat_length|]. intros i I. destruct (in_dec Nat.eq_dec i L) as [D|D].
      + exists (Rw i). split; [apply B, D|apply LR].
      + exists (repeat (XF 0) c). split; [apply C'; [exact I|intros W; apply D, INL; auto]|apply repeat_length]. }
  assert (PL : forall f i, length (prow f i) = length pairs) by (intros; unfold prow; apply map_length).
  assert (ML : forall f i, length (moments d (o_weight o i) f) = d_vars d) by (intros; apply moments_length).
  assert (Z : s_mean (prepare o) = zeros n (d_vars d) /\ s_var (prepare o) = zeros n (d_vars d) /\ s_cov (prepare o) = zeros n (length pairs) /\
    s_corr (prepare o) = zeros n (length pairs) /\ s_scorr (prepare o) = zeros n (length pairs)).
  { unfold prepare. rewrite MO, PLEN. repeat split. }
  destruct Z as (Z1 & Z2 & Z3 & Z4 & Z5).
  destruct (ROWSOF s_mean (fun i => moments d (o_weight o i) (fun n W x => XF (gw_mean n W x))) _ (fun i s => eq_refl) Z1 (ML _)) as (S1 & W1 & N1).
  destruct (ROWSOF s_var (fun i => moments d (o_weight o i) (fun n W x => XF (gw_var n W x))) _ (fun i s => eq_refl) Z2 (ML _)) as (S2 & W2 & N2).
  destruct (ROWSOF s_cov (prow covwt) _ (fun i s => eq_refl) Z3 (PL _)) as (S3 & W3 & N3).
  destruct (ROWSOF s_corr (prow corr) _ (fun i s => eq_refl) Z4 (PL _)) as (S4 & W4 & N4).
  destruct (ROWSOF s_scorr (prow (spearman sort_index)) _ (fun i s => eq_refl) Z5 (PL _)) as (S5 & W5 & N5).
  exists (set_term tF (set_stats sF o)). split; [exact RUN|]. split; [repeat split|]. cbn [set_term set_stats o_term o_stats].
  split; [unfold tF; rewrite orb_true_iff, asked_spec; reflexivity|].
  split; [exact (conj S1 (conj S2 (conj S3 (conj S4 S5))))|]. split; [|split].
  - intros i j I J. split; intros W.
    + specialize (PW i I W). split; eexists.
      * split; [rewrite (entry_put _ _ _ _ (W1 i I W)), (moments_at o ROWS _ _ _ J PW); reflexivity|]. cbn. now rewrite mean_share.
      * split; [rewrite (entry_put _ _ _ _ (W2 i I W)), (moments_at o ROWS _ _ _ J PW); reflexivity|]. cbn. now rewrite var_share.
    + split; [now apply zero_at with (c := d_vars d); [apply N1| |]|now apply zero_at with (c := d_vars d); [apply N2| |]].
  - intros i t j k I T.
    assert (TL : (t < length pairs)%nat) by (apply nth_error_Some; congruence). split; intros W.
    + specialize (PW i I W).
      assert (E : forall g f, nth_error (g sF) i = Some (prow f i) -> entry (g sF) i t = Some (f n (d_x d j) (d_x d k) (share n (o_weight o i)))).
      { intros g f H. rewrite (entry_put _ _ _ _ H). unfold prow. rewrite nth_error_map, T. cbn [option_map fst snd]. now rewrite <- ROWS, (norm_share o _ PW). }
      destruct (C59_meaning_main n (o_weight o i) (d_x d j) (d_x d k) PW) as (Wt & NW & A & B & _). rewrite (norm_share o _ PW) in NW. injection NW as <-.
      unfold correlations. split; [|split].
      * intros a b LA LB AB WA WB. eexists. split; [apply (E s_cov covwt (W3 i I W))|]. exact (A a b LA LB AB WA WB).
      * intros V1 V2. eexists. split; [apply (E s_corr corr (W4 i I W))|]. exact (B V1 V2).
      * exists (fun i => nth i (rank sort_index (map (d_x d j) (seq 0 n))) 0), (fun i => nth i (rank sort_index (map (d_x d k) (seq 0 n))) 0).
        split; [apply rank_ranks|]. split; [apply rank_ranks|]. intros V1 V2.
        eexists. split; [apply (E s_scorr (spearman sort_index) (W5 i I W))|].
        destruct (C59_spearman_meaning_main sort_index SI n (o_weight o i) (d_x d j) (d_x d k) PW) as (Wt & NW & EQ). rewrite (norm_share o _ PW) in NW. injection NW as <-.
        rewrite EQ.
        destruct (C59_meaning_main n (o_weight o i) (fun i => nth i (rank sort_index (map (d_x d j) (seq 0 n))) 0) (fun i => nth i (rank sort_index (map (d_x d k) (seq 0 n))) 0) PW) as (Wt & NW & _ & B' & _).
        rewrite (norm_share o _ PW) in NW. injection NW as <-. exact (B' V1 V2).
    + split; [now apply zero_at with (c := length pairs); [apply N3| |]|]. split; now apply zero_at with (c := length pairs); [apply N4 || apply N5| |].
  - unfold sF. rewrite (fold_same Uc s_sd), (fold_same Uc s_skew), (fold_same Uc s_cv), (fold_same Uc s_median), (fold_same Uc s_iqr), (fold_same Uc s_qi) by reflexivity.
    unfold prepare. rewrite MO. repeat split.
Qed.
End Obj.
