(** Proofs for C168: the results of a run. *)
From Coq Require Import Reals Bool List Arith Lia Lra Permutation.
From Verif Require Import Outcome XReal XRealFacts RSort Sums DiagModel DiagProofs GwssModel GwssSpec GwssProofs GwssCases GwssValues GwssObjModel GwssObjSpec GwssObjProofs.
Import ListNotations.
Local Open Scope R_scope.

Section Obj.
Variable sort_index : list R -> list nat.

(** ** The summary function belongs to the settings *)
Lemma run_settings stop early order o o' : run sort_index stop early order o = Returns o' \/ run sort_index stop early order o = Throws o' -> same_settings o o'.
Proof.
  unfold run, same_settings. destruct early; [intros [E|E]; [injection E as <-|discriminate]; repeat split|].
  destruct (summarise _ _ _ _ _); intros [E|E]; try discriminate; injection E as <-; repeat split.
Qed.
Lemma calc_reachable o : reachable sort_index o -> o_calc o = calculator_of (o_par o) (o_mode o).
Proof.
  induction 1 as [d n w|s o _ IH|stop early order o o' _ IH E|stop early order o o' _ IH E].
  - reflexivity.
  - destruct s; cbn [assign]; try exact IH; try reflexivity. destruct (able p); [reflexivity|exact IH].
  - destruct (run_settings stop early order o o' (or_introl E)) as (_ & _ & _ & _ & _ & M & P & C). congruence.
  - destruct (run_settings stop early order o o' (or_intror E)) as (_ & _ & _ & _ & _ & M & P & C). congruence.
Qed.

Variable stop : nat -> bool.
Definition done_locs (p : par) (order : list nat) (n : nat) : list nat :=
  match p with OpenMP => filter (fun i => negb (stop i)) order | _ => until stop (seq 0 n) end.
Lemma in_done p order n i : Permutation order (seq 0 n) -> In i (done_locs p order n) <-> (i < n)%nat /\ worked p stop i.
Proof.
  intros P. assert (ST : In i (until stop (seq 0 n)) <-> (i < n)%nat /\ forall j, (j <= i)%nat -> stop j = false).
  { rewrite in_until. split; intros [A B]; (split; [lia|]); intros j J; apply B; lia. }
  destruct p; cbn [done_locs worked]; try exact ST.
  rewrite filter_In, negb_true_iff. split; intros [A B]; (split; [|exact B]).
  - apply (Permutation_in _ P) in A. apply in_seq in A. lia.
  - apply (Permutation_in _ (Permutation_sym P)). apply in_seq. lia.
Qed.
Lemma exists_perm order l : Permutation order l -> existsb stop order = existsb stop l.
Proof.
  intros P. apply eq_iff_eq_true. rewrite !existsb_exists. split; intros (x & X & E); exists x; (split; [|exact E]).
  - now apply (Permutation_in _ P).
  - now apply (Permutation_in _ (Permutation_sym P)).
Qed.
Lemma loops p order n step U s term : Permutation order (seq 0 n) ->
  (forall i s, (i < n)%nat -> worked p stop i -> step i s = Ok (U i s)) ->
  match p with OpenMP => parallel stop step term order s | _ => serial stop step term (seq 0 n) s end =
  Ended (term || existsb stop (seq 0 n)) (fold_left (fun s i => U i s) (done_locs p order n) s).
Proof.
  intros P H.
  assert (ST : (forall i s, (i < n)%nat -> (forall j, (j <= i)%nat -> stop j = false) -> step i s = Ok (U i s)) ->
    serial stop step term (seq 0 n) s = Ended (term || existsb stop (seq 0 n)) (fold_left (fun s i => U i s) (until stop (seq 0 n)) s)).
  { intros H'. apply serial_fold. intros i s' IN. apply in_until in IN. destruct IN as [A B]. apply H'; [lia|]. intros j J. apply B. lia. }
  destruct p; cbn [done_locs worked] in *; try exact (ST H).
  rewrite (parallel_fold stop step U), (exists_perm order (seq 0 n) P).
  - reflexivity.
  - intros i s' IN S. apply (Permutation_in _ P), in_seq in IN. apply H; [lia|exact S].
Qed.
Lemma asked_spec n : existsb stop (seq 0 n) = true <-> exists i, (i < n)%nat /\ stop i = true.
Proof. rewrite existsb_exists. split; intros (i & A & B); exists i; rewrite in_seq in *; (split; [lia|exact B]). Qed.

Variable o : obj.
Notation d := (o_data o).
Notation n := (o_locs o).
Hypothesis ROWS : n = d_rows d.

(** ** Moments *)
Lemma moments_at w f j : (j < d_vars d)%nat -> proper_weights n w ->
  nth_error (moments d w f) j = Some (f n (share n w) (d_x d j)).
Proof.
  intros J PW. unfold moments. rewrite map_seq_at by exact J. rewrite <- ROWS.
  destruct (C58_shape_main n w (d_x d j) PW) as (W & NW & _). unfold normalise in *. destruct (Reqb (bigsum n w) 0); [discriminate|reflexivity].
Qed.
Lemma moments_length w f : length (moments d w f) = d_vars d.
Proof. unfold moments. now rewrite map_length, seq_length. Qed.
Lemma norm_share w : proper_weights n w -> normalise n w = Some (share n w).
Proof. intros PW. destruct (C58_shape_main n w (fun _ => 0) PW) as (W & NW & _). unfold normalise in *. destruct (Reqb (bigsum n w) 0); [discriminate|reflexivity]. Qed.
Lemma wvar_eq w x : wcov n w x x = bigsum n (fun j => w j * (x j - wmean n w x) ^ 2) / bigsum n w.
Proof. unfold wcov. f_equal. apply bigsum_ext. intros. ring. Qed.
Lemma pos_sum w : proper_weights n w -> 0 < bigsum n w.
Proof.
  intros [P (k & K & Q)]. assert (N := bigsum_nonneg n w P). destruct (Req_dec (bigsum n w) 0) as [E|E]; [|lra].
  rewrite (bigsum_zero n w P E k K) in Q. lra.
Qed.
Lemma mean_share w x : proper_weights n w -> gw_mean n (share n w) x = wmean n w x.
Proof.
  intros PW. assert (T := pos_sum w PW). destruct (C58_meaning_main n w x T) as (W & NW & M & _). rewrite (norm_share w PW) in NW. injection NW as <-.
  unfold wmean. rewrite <- M. field. lra.
Qed.
Lemma var_share w x : proper_weights n w -> gw_var n (share n w) x = wcov n w x x.
Proof.
  intros PW. assert (T := pos_sum w PW). destruct (C58_meaning_main n w x T) as (W & NW & M & V). rewrite (norm_share w PW) in NW. injection NW as <-.
  rewrite wvar_eq, <- (mean_share w x PW), <- V. field. lra.
Qed.
Lemma shape_share w x : proper_weights n w ->
  xval (gw_sd n (share n w) x) = Some (sqrt (wcov n w x x)) /\
  (0 < wcov n w x x -> xval (gw_skew n (share n w) x) = Some (wthird n w x / (wcov n w x x * sqrt (wcov n w x x)))) /\
  (wmean n w x <> 0 -> xval (gw_cv n (share n w) x) = Some (sqrt (wcov n w x x) / wmean n w x)).
Proof.
  intros PW. destruct (C58_shape_main n w x PW) as (W & NW & A & B & _ & D). rewrite (norm_share w PW) in NW. injection NW as <-.
  cbv zeta in *. rewrite wvar_eq. fold (wmean n w x) in *. split; [exact A|]. split; [exact B|exact D].
Qed.

(** ** Average *)
Definition hq (i j : nat) : R * R * xd := match quartiles sort_index d (o_weight o i) j with Ok t => t | _ => (0, 0, XN) end.
Definition qrow (f : R * R * xd -> xd) (i : nat) : list xd := map f (map (hq i) (seq 0 (d_vars d))).
Definition Ua (i : nat) (s : stats) : stats :=
  let w := o_weight o i in
  let m := fun f => moments d w f in
  mkStats (put i (m (fun n W x => XF (gw_mean n W x))) (s_mean s)) (put i (m gw_sd) (s_sd s)) (put i (m gw_skew) (s_skew s)) (s_cv s)
    (put i (m (fun n W x => XF (gw_var n W x))) (s_var s))
    (if o_quantile o then put i (qrow (fun t => XF (fst (fst t))) i) (s_median s) else s_median s)
    (if o_quantile o then put i (qrow (fun t => XF (snd (fst t))) i) (s_iqr s) else s_iqr s)
    (if o_quantile o then put i (qrow snd i) (s_qi s) else s_qi s) (s_cov s) (s_corr s) (s_scorr s).
Lemma average_ok i s : (o_quantile o = true -> forall j, (j < d_vars d)%nat -> exists t, quartiles sort_index d (o_weight o i) j = Ok t) ->
  average_at sort_index o i s = Ok (Ua i s).
Proof.
  intros Q. unfold average_at, Ua. rewrite (proj2 (Nat.eqb_eq _ _) ROWS). cbn [negb]. destruct (o_quantile o); [|reflexivity].
  rewrite (all_of_map _ (hq i)).
  - reflexivity.
  - intros j J. apply in_seq in J. destruct (Q eq_refl j ltac:(lia)) as [t E]. unfold hq. now rewrite E.
Qed.
Lemma quartiles_ok (SI : sorts_indices sort_index) i j : (0 < n)%nat -> proper_weights n (o_weight o i) -> light n (o_weight o i) (d_x d j) ->
  exists q1 q2 q3 qi, quartiles sort_index d (o_weight o i) j = Ok (q2, q3 - q1, qi) /\ q1 <= q2 <= q3 /\
    is_quartile n (o_weight o i) (d_x d j) (1 / 4) q1 /\ is_quartile n (o_weight o i) (d_x d j) (2 / 4) q2 /\ is_quartile n (o_weight o i) (d_x d j) (3 / 4) q3 /\
    (q1 <> q3 -> xval qi = Some ((2 * q2 - q3 - q1) / (q3 - q1))).
Proof.
  intros N PW L. assert (T := pos_sum _ PW). destruct (C60_main sort_index SI n (d_x d j) (share n (o_weight o i)) N) as (q1 & q2 & q3 & E & LE & Q).
  - intros k K. unfold share. apply Rmult_le_pos; [now apply PW|]. left. now apply Rinv_0_lt_compat.
  - exact L.
  - destruct (C60_from_quartiles_main sort_index n (d_x d j) (share n (o_weight o i)) q1 q2 q3 E) as (qi & EQ & QI).
    exists q1, q2, q3, qi. split; [unfold quartiles; rewrite <- ROWS, (norm_share _ PW); exact EQ|]. split; [exact LE|].
    split; [apply Q; cbn; tauto|]. split; [apply Q; cbn; tauto|]. split; [apply Q; cbn; tauto|exact QI].
Qed.

Lemma zero_at m r c i j : nth_error m i = Some (repeat (XF 0) c) -> (j < c)%nat -> r = 0 -> has m i j r.
Proof. intros E J ->. exists (XF 0). split; [|reflexivity]. rewrite (entry_put _ _ _ _ E). now apply repeat_at. Qed.

Lemma average_main order (SI : sorts_indices sort_index) : o_calc o = calculator_of (o_par o) (o_mode o) -> o_mode o = Average ->
  Permutation order (seq 0 n) ->
  (forall i, (i < n)%nat -> worked (o_par o) stop i -> proper_weights n (o_weight o i)) ->
  (o_quantile o = true -> forall i j, (i < n)%nat -> worked (o_par o) stop i -> (j < d_vars d)%nat -> light n (o_weight o i) (d_x d j)) ->
  exists o', run sort_index stop false order o = Returns o' /\ same_settings o o' /\
    (o_term o' = true <-> o_term o = true \/ exists i, (i < n)%nat /\ stop i = true) /\
    (shape (s_mean (o_stats o')) n (d_vars d) /\ shape (s_var (o_stats o')) n (d_vars d) /\ shape (s_sd (o_stats o')) n (d_vars d) /\
     shape (s_skew (o_stats o')) n (d_vars d) /\ shape (s_cv (o_stats o')) n (d_vars d)) /\
    (forall i j, (i < n)%nat -> (j < d_vars d)%nat ->
       (worked (o_par o) stop i -> averages n (o_weight o i) (d_x d j) (o_stats o') i j) /\
       (~ worked (o_par o) stop i -> has (s_mean (o_stats o')) i j 0 /\ has (s_var (o_stats o')) i j 0 /\ has (s_sd (o_stats o')) i j 0 /\
          has (s_skew (o_stats o')) i j 0 /\ entry (s_cv (o_stats o')) i j = Some XN)) /\
    (if o_quantile o
     then (shape (s_median (o_stats o')) n (d_vars d) /\ shape (s_iqr (o_stats o')) n (d_vars d) /\ shape (s_qi (o_stats o')) n (d_vars d)) /\
       forall i j, (i < n)%nat -> (j < d_vars d)%nat ->
          (worked (o_par o) stop i -> quantiles n (o_weight o i) (d_x d j) (o_stats o') i j) /\
          (~ worked (o_par o) stop i -> has (s_median (o_stats o')) i j 0 /\ has (s_iqr (o_stats o')) i j 0 /\ has (s_qi (o_stats o')) i j 0)
     else s_median (o_stats o') = s_median (o_stats o) /\ s_iqr (o_stats o') = s_iqr (o_stats o) /\ s_qi (o_stats o') = s_qi (o_stats o)) /\
    s_cov (o_stats o') = s_cov (o_stats o) /\ s_corr (o_stats o') = s_corr (o_stats o) /\ s_scorr (o_stats o') = s_scorr (o_stats o).
Proof.
  intros CA MO P PW LI.
  assert (OKS : forall i s, (i < n)%nat -> worked (o_par o) stop i -> average_at sort_index o i s = Ok (Ua i s)).
  { intros i s I W. apply average_ok. intros Q j J. destruct (quartiles_ok SI i j) as (q1 & q2 & q3 & qi & E & _); auto; [lia|]. eexists; exact E. }
  assert (LP := loops (o_par o) order n (average_at sort_index o) Ua (prepare o) (o_term o) P OKS).
  set (L := done_locs (o_par o) order n) in *.
  assert (INL : forall i, In i L <-> (i < n)%nat /\ worked (o_par o) stop i) by (intros i; apply in_done; exact P).
  set (sF := fold_left (fun s i => Ua i s) L (prepare o)) in *.
  set (tF := (o_term o || existsb stop (seq 0 n))%bool) in *.
  assert (RUN : run sort_index stop false order o =
    Returns (set_term tF (set_stats (mkStats (s_mean sF) (s_sd sF) (s_skew sF) (quotient (s_sd sF) (s_mean sF)) (s_var sF)
                           (s_median sF) (s_iqr sF) (s_qi sF) (s_cov sF) (s_corr sF) (s_scorr sF)) o))).
  { unfold run, summarise. rewrite CA, MO. destruct (o_par o); cbn [calculator_of]; rewrite LP; reflexivity. }
  assert (ROWSOF : forall g Rw, (forall i s, g (Ua i s) = put i (Rw i) (g s)) -> g (prepare o) = zeros n (d_vars d) ->
    length (g sF) = n /\ (forall i, (i < n)%nat -> worked (o_par o) stop i -> nth_error (g sF) i = Some (Rw i)) /\
    (forall i, (i < n)%nat -> ~ worked (o_par o) stop i -> nth_error (g sF) i = Some (repeat (XF 0) (d_vars d)))).
  { intros g Rw PU Z. destruct (fold_put Ua g Rw PU L (prepare o)) as (A & B & C).
    - intros i I. rewrite Z. unfold zeros. rewrite repeat_length. now apply INL.
    - fold sF in A, B, C. split; [rewrite A, Z; unfold zeros; apply repeat_length|]. split.
      + intros i I W. apply B. apply INL. auto.
      + intros i I W. rewrite C by (intros D; apply INL in D; tauto). rewrite Z. now apply zeros_row. }
  assert (SHAPE : forall g Rw, (forall i s, g (Ua i s) = put i (Rw i) (g s)) -> g (prepare o) = zeros n (d_vars d) -> (forall i, length (Rw i) = d_vars d) -> shape (g sF) n (d_vars d)).
  { intros g Rw PU Z LR. destruct (ROWSOF g Rw PU Z) as (A & B & C). apply shape_rows; [exact A|]. intros i I.
    destruct (in_dec Nat.eq_dec i L) as [D|D].
    - exists (Rw i). split; [apply B; [exact I|now apply INL]|apply LR].
    - exists (repeat (XF 0) (d_vars d)). split; [apply C; [exact I|intros W; apply D, INL; auto]|apply repeat_length]. }
  assert (ZM : s_mean (prepare o) = zeros n (d_vars d) /\ s_sd (prepare o) = zeros n (d_vars d) /\ s_skew (prepare o) = zeros n (d_vars d) /\ s_var (prepare o) = zeros n (d_vars d)).
  { unfold prepare. rewrite MO. destruct (o_quantile o); repeat split. }
  destruct ZM as (Z1 & Z2 & Z3 & Z4).
  pose (R1 := fun i => moments d (o_weight o i) (fun n W x => XF (gw_mean n W x))).
  pose (R2 := fun i => moments d (o_weight o i) gw_sd).
  pose (R3 := fun i => moments d (o_weight o i) gw_skew).
  pose (R4 := fun i => moments d (o_weight o i) (fun n W x => XF (gw_var n W x))).
  assert (ML : forall f i, length (moments d (o_weight o i) f) = d_vars d) by (intros; apply moments_length).
  assert (S1 := SHAPE s_mean R1 (fun i s => eq_refl) Z1 (ML _)). assert (S2 := SHAPE s_sd R2 (fun i s => eq_refl) Z2 (ML _)).
  assert (S3 := SHAPE s_skew R3 (fun i s => eq_refl) Z3 (ML _)). assert (S4 := SHAPE s_var R4 (fun i s => eq_refl) Z4 (ML _)).
  destruct (ROWSOF s_mean R1 (fun i s => eq_refl) Z1) as (_ & W1 & N1). destruct (ROWSOF s_sd R2 (fun i s => eq_refl) Z2) as (_ & W2 & N2).
  destruct (ROWSOF s_skew R3 (fun i s => eq_refl) Z3) as (_ & W3 & N3). destruct (ROWSOF s_var R4 (fun i s => eq_refl) Z4) as (_ & W4 & N4).
  eexists. split; [exact RUN|]. split; [repeat split|]. cbn [set_term set_stats o_term o_stats s_mean s_sd s_skew s_cv s_var s_median s_iqr s_qi s_cov s_corr s_scorr].
  split; [unfold tF; rewrite orb_true_iff, asked_spec; reflexivity|].
  split; [exact (conj S1 (conj S4 (conj S2 (conj S3 (quotient_shape _ _ _ _ S2 S1)))))|].
  split; [|split].
  - intros i j I J. split.
    + intros W. specialize (PW i I W). unfold averages. cbv zeta. cbn [s_mean s_sd s_skew s_cv s_var].
      assert (E1 : entry (s_mean sF) i j = Some (XF (gw_mean n (share n (o_weight o i)) (d_x d j)))).
      { rewrite (entry_put _ _ _ _ (W1 i I W)). unfold R1. now rewrite (moments_at _ _ _ J PW). }
      assert (E2 : entry (s_sd sF) i j = Some (gw_sd n (share n (o_weight o i)) (d_x d j))).
      { rewrite (entry_put _ _ _ _ (W2 i I W)). unfold R2. now rewrite (moments_at _ _ _ J PW). }
      assert (E3 : entry (s_skew sF) i j = Some (gw_skew n (share n (o_weight o i)) (d_x d j))).
      { rewrite (entry_put _ _ _ _ (W3 i I W)). unfold R3. now rewrite (moments_at _ _ _ J PW). }
      assert (E4 : entry (s_var sF) i j = Some (XF (gw_var n (share n (o_weight o i)) (d_x d j)))).
      { rewrite (entry_put _ _ _ _ (W4 i I W)). unfold R4. now rewrite (moments_at _ _ _ J PW). }
      destruct (shape_share (o_weight o i) (d_x d j) PW) as (A & B & C).
      split; [eexists; split; [exact E1|cbn; now rewrite mean_share]|]. split; [eexists; split; [exact E4|cbn; now rewrite var_share]|].
      split; [eexists; split; [exact E2|exact A]|]. split; [intros V; eexists; split; [exact E3|now apply B]|].
      intros M. eexists. split; [apply quotient_entry; [exact E2|exact E1]|]. now apply C.
    + intros W. split; [now apply zero_at with (c := d_vars d); [apply N1| |]|]. split; [now apply zero_at with (c := d_vars d); [apply N4| |]|].
      split; [now apply zero_at with (c := d_vars d); [apply N2| |]|]. split; [now apply zero_at with (c := d_vars d); [apply N3| |]|].
      rewrite (quotient_entry _ _ i j (XF 0) (XF 0)).
      * cbn. unfold Reqb. destruct (Req_EM_T 0 0); [reflexivity|contradiction].
      * rewrite (entry_put _ _ _ _ (N2 i I W)). now apply repeat_at.
      * rewrite (entry_put _ _ _ _ (N1 i I W)). now apply repeat_at.
  - destruct (o_quantile o) eqn:Q.
    + assert (ZQ : s_median (prepare o) = zeros n (d_vars d) /\ s_iqr (prepare o) = zeros n (d_vars d) /\ s_qi (prepare o) = zeros n (d_vars d)).
      { unfold prepare. rewrite MO, Q. repeat split. }
      destruct ZQ as (Z5 & Z6 & Z7).
      assert (P5 : forall i s, s_median (Ua i s) = put i (qrow (fun t => XF (fst (fst t))) i) (s_median s)) by (intros; unfold Ua; cbn; now rewrite Q).
      assert (P6 : forall i s, s_iqr (Ua i s) = put i (qrow (fun t => XF (snd (fst t))) i) (s_iqr s)) by (intros; unfold Ua; cbn; now rewrite Q).
      assert (P7 : forall i s, s_qi (Ua i s) = put i (qrow snd i) (s_qi s)) by (intros; unfold Ua; cbn; now rewrite Q).
      assert (QL : forall f i, length (qrow f i) = d_vars d) by (intros; unfold qrow; now rewrite !map_length, seq_length).
      split; [split; [|split]; eapply SHAPE; eauto|].
      destruct (ROWSOF s_median _ P5 Z5) as (_ & W5 & N5). destruct (ROWSOF s_iqr _ P6 Z6) as (_ & W6 & N6). destruct (ROWSOF s_qi _ P7 Z7) as (_ & W7 & N7).
      intros i j I J. split.
      * intros W. destruct (quartiles_ok SI i j ltac:(lia) (PW i I W) (LI eq_refl i j I W J)) as (q1 & q2 & q3 & qi & E & LE & A1 & A2 & A3 & A4).
        exists q1, q2, q3. cbn [s_median s_iqr s_qi].
        assert (QR : forall f, nth_error (qrow f i) j = Some (f (q2, q3 - q1, qi))).
        { intros f. unfold qrow. rewrite map_map, map_seq_at by exact J. unfold hq. now rewrite E. }
        split; [exact LE|]. split; [exact A1|]. split; [exact A2|]. split; [exact A3|].
        split; [eexists; split; [rewrite (entry_put _ _ _ _ (W5 i I W)); apply QR|reflexivity]|].
        split; [eexists; split; [rewrite (entry_put _ _ _ _ (W6 i I W)); apply QR|reflexivity]|].
        intros D. eexists; split; [rewrite (entry_put _ _ _ _ (W7 i I W)); apply QR|now apply A4].
      * intros W. split; [now apply zero_at with (c := d_vars d); [apply N5| |]|]. split; now apply zero_at with (c := d_vars d); [apply N6 || apply N7| |].
    + unfold sF. rewrite (fold_same Ua s_median), (fold_same Ua s_iqr), (fold_same Ua s_qi) by (intros; unfold Ua; cbn; now rewrite Q).
      unfold prepare. rewrite MO, Q. repeat split.
  - unfold sF. rewrite (fold_same Ua s_cov), (fold_same Ua s_corr), (fold_same Ua s_scorr) by reflexivity.
    unfold prepare. rewrite MO. destruct (o_quantile o); repeat split.
Qed.
End Obj.
