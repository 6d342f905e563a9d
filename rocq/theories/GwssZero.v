(** Locations that no observation weighs in (C168). *)
From Coq Require Import Reals Bool List Arith Lia Lra Permutation Sorted.
From Verif Require Import Outcome XReal XRealFacts RSort Sums GwssModel GwssSpec GwssCases GwssObjModel GwssObjSpec GwssObjProofs GwssObjMain GwssObjCases GwssObjStale.
Import ListNotations.
Local Open Scope R_scope.

Lemma zero_normalise n w : (forall k, (k < n)%nat -> w k = 0) -> normalise n w = None.
Proof.
  intros Z. unfold normalise. assert (bigsum n w = 0) as ->.
  { induction n as [|m IH]; [reflexivity|]. cbn [bigsum]. rewrite IH by (intros; apply Z; lia). rewrite Z by lia. lra. }
  unfold Reqb. destruct Req_EM_T; [reflexivity|lra].
Qed.
Lemma sorted_last : forall (l : list R) d v, StronglySorted Rle l -> nth_error l (length l - 1) = Some v -> In d l -> d <= v.
Proof.
  induction l as [|a l IH]; intros d v SS E I; [destruct I|]. inversion SS as [|? ? S' F]; subst. destruct l as [|b l].
  - cbn in E. injection E as <-. destruct I as [->|[]]. lra.
  - assert (E' : nth_error (b :: l) (length (b :: l) - 1) = Some v).
    { cbn [length] in E |- *. replace (S (S (length l)) - 1)%nat with (S (length l)) in E by lia. replace (S (length l) - 1)%nat with (length l) by lia. exact E. }
    destruct I as [->|I]; [|now apply IH]. apply nth_error_In in E'. rewrite Forall_forall in F. now apply F.
Qed.
Lemma largest_ok n x : (0 < n)%nat -> exists v, largest n x = Ok (v, 0, XN) /\ (exists j, (j < n)%nat /\ v = x j) /\ forall j, (j < n)%nat -> x j <= v.
Proof.
  intros N. unfold largest. assert (L : length (rsort (column n x)) = n) by (rewrite rsort_length; unfold column; now rewrite map_length, seq_length).
  destruct (nth_error (rsort (column n x)) (n - 1)) as [v|] eqn:E; [|apply nth_error_None in E; lia].
  exists v. split; [reflexivity|]. split.
  - apply nth_error_In in E. apply (Permutation_in _ (rsort_perm _)) in E. unfold column in E. apply in_map_iff in E. destruct E as (j & <- & I).
    apply in_seq in I. exists j. split; [lia|reflexivity].
  - intros j J. apply (sorted_last (rsort (column n x))); [apply rsort_sorted|rewrite L; exact E|].
    apply (Permutation_in _ (Permutation_sym (rsort_perm _))). unfold column. apply in_map, in_seq. lia.
Qed.

Section Zero.
Variable sort_index : list R -> list nat.
Hypothesis SI : sorts_indices sort_index.
Variables (o : obj) (stop : nat -> bool) (order : list nat).
Notation d := (o_data o).
Notation n := (o_locs o).
Lemma zero_moments w f j : d_rows d = n -> (j < d_vars d)%nat -> (forall k, (k < n)%nat -> w k = 0) -> nth_error (moments d w f) j = Some XN.
Proof. intros E J Z. unfold moments. rewrite map_seq_at by exact J. rewrite E, (zero_normalise _ _ Z). reflexivity. Qed.
Lemma zero_main : reachable sort_index o -> o_mode o = Average -> o_quantile o = true -> n = d_rows d -> Permutation order (seq 0 n) ->
  (forall i, (i < n)%nat -> worked (o_par o) stop i -> (forall k, (k < n)%nat -> o_weight o i k = 0) \/
     proper_weights n (o_weight o i) /\ forall j, (j < d_vars d)%nat -> light n (o_weight o i) (d_x d j)) ->
  exists o', run sort_index stop false order o = Returns o' /\
    forall i j, (i < n)%nat -> (j < d_vars d)%nat -> worked (o_par o) stop i -> (forall k, (k < n)%nat -> o_weight o i k = 0) ->
      entry (s_mean (o_stats o')) i j = Some XN /\ entry (s_var (o_stats o')) i j = Some XN /\ entry (s_sd (o_stats o')) i j = Some XN /\
      entry (s_skew (o_stats o')) i j = Some XN /\ entry (s_cv (o_stats o')) i j = Some XN /\
      exists v, (exists k, (k < n)%nat /\ v = d_x d j k) /\ (forall k, (k < n)%nat -> d_x d j k <= v) /\
        has (s_median (o_stats o')) i j v /\ has (s_iqr (o_stats o')) i j 0 /\ entry (s_qi (o_stats o')) i j = Some XN.
Proof.
  intros RE MO Q ROWS P H. assert (CA := calc_reachable sort_index o RE).
  assert (QZ : forall i j, (0 < n)%nat -> (forall k, (k < n)%nat -> o_weight o i k = 0) -> quartiles sort_index d (o_weight o i) j = largest n (d_x d j)).
  { intros i j _ Z. unfold quartiles. rewrite <- ROWS, (zero_normalise _ _ Z). reflexivity. }
  assert (OKS : forall i s, (i < n)%nat -> worked (o_par o) stop i -> average_at sort_index o i s = Ok (Ua sort_index o i s)).
  { intros i s I W. apply average_ok; [exact ROWS|]. intros _ j J. destruct (H i I W) as [Z|[PW L]].
    - rewrite QZ by (lia || exact Z). destruct (largest_ok n (d_x d j)) as (v & E & _); [lia|]. eexists; exact E.
    - destruct (quartiles_ok sort_index stop o ROWS SI i j) as (q1 & q2 & q3 & qi & E & _); auto; [lia|]. eexists; exact E. }
  assert (LP := loops stop (o_par o) order n (average_at sort_index o) (Ua sort_index o) (prepare o) (o_term o) P OKS).
  set (L := done_locs stop (o_par o) order n) in *.
  assert (INL : forall i, In i L <-> (i < n)%nat /\ worked (o_par o) stop i) by (intros i; apply in_done; exact P).
  set (sF := fold_left (fun s i => Ua sort_index o i s) L (prepare o)) in *.
  set (tF := (o_term o || existsb stop (seq 0 n))%bool) in *.
  assert (RUN : run sort_index stop false order o =
    Returns (set_term tF (set_stats (mkStats (s_mean sF) (s_sd sF) (s_skew sF) (quotient (s_sd sF) (s_mean sF)) (s_var sF)
                           (s_median sF) (s_iqr sF) (s_qi sF) (s_cov sF) (s_corr sF) (s_scorr sF)) o))).
  { unfold run, summarise. rewrite CA, MO. destruct (o_par o); cbn [calculator_of]; rewrite LP; reflexivity. }
  assert (ROWSOF : forall g Rw, (forall i s, g (Ua sort_index o i s) = put i (Rw i) (g s)) -> g (prepare o) = zeros n (d_vars d) ->
    forall i, (i < n)%nat -> worked (o_par o) stop i -> nth_error (g sF) i = Some (Rw i)).
  { intros g Rw PU Z. destruct (fold_put (Ua sort_index o) g Rw PU L (prepare o)) as (A & B & C).
    - intros i I. rewrite Z. unfold zeros. rewrite repeat_length. now apply INL.
    - fold sF in A, B, C. intros i I W. apply B. apply INL. auto. }
  assert (Z : forall g, In g [s_mean; s_sd; s_skew; s_var; s_median; s_iqr; s_qi] -> g (prepare o) = zeros n (d_vars d)).
  { intros g G. unfold prepare. rewrite MO, Q. repeat (destruct G as [<-|G]; [reflexivity|]). destruct G. }
  assert (W1 := ROWSOF s_mean _ (fun i s => eq_refl) (Z s_mean ltac:(cbn; tauto))). assert (W2 := ROWSOF s_sd _ (fun i s => eq_refl) (Z s_sd ltac:(cbn; tauto))).
  assert (W3 := ROWSOF s_skew _ (fun i s => eq_refl) (Z s_skew ltac:(cbn; tauto))). assert (W4 := ROWSOF s_var _ (fun i s => eq_refl) (Z s_var ltac:(cbn; tauto))).
  assert (W5 := ROWSOF s_median (qrow sort_index o (fun t => XF (fst (fst t)))) (fun i s => ltac:(unfold Ua; rewrite Q; reflexivity)) (Z s_median ltac:(cbn; tauto))).
  assert (W6 := ROWSOF s_iqr (qrow sort_index o (fun t => XF (snd (fst t)))) (fun i s => ltac:(unfold Ua; rewrite Q; reflexivity)) (Z s_iqr ltac:(cbn; tauto))).
  assert (W7 := ROWSOF s_qi (qrow sort_index o snd) (fun i s => ltac:(unfold Ua; rewrite Q; reflexivity)) (Z s_qi ltac:(cbn; tauto))).
  eexists. split; [exact RUN|]. intros i j I J W NW.
  cbn [set_term set_stats o_stats s_mean s_sd s_skew s_cv s_var s_median s_iqr s_qi].
  assert (ZM := fun f => zero_moments (o_weight o i) f j (eq_sym ROWS) J NW).
  assert (E1 : entry (s_mean sF) i j = Some XN) by (rewrite (entry_put _ _ _ _ (W1 i I W)); apply ZM).
  assert (E2 : entry (s_sd sF) i j = Some XN) by (rewrite (entry_put _ _ _ _ (W2 i I W)); apply ZM).
  split; [exact E1|]. split; [rewrite (entry_put _ _ _ _ (W4 i I W)); apply ZM|]. split; [exact E2|].
  split; [rewrite (entry_put _ _ _ _ (W3 i I W)); apply ZM|].
  split; [rewrite (quotient_entry _ _ i j XN XN E2 E1); reflexivity|].
  destruct (largest_ok n (d_x d j)) as (v & E & A & B); [lia|]. exists v. split; [exact A|]. split; [exact B|].
  assert (QR : forall f, nth_error (qrow sort_index o f i) j = Some (f (v, 0, XN))).
  { intros f. unfold qrow. rewrite map_map, map_seq_at by exact J. unfold hq. rewrite QZ by (lia || exact NW). now rewrite E. }
  split; [eexists; split; [rewrite (entry_put _ _ _ _ (W5 i I W)); apply QR|reflexivity]|].
  split; [eexists; split; [rewrite (entry_put _ _ _ _ (W6 i I W)); apply QR|reflexivity]|].
  rewrite (entry_put _ _ _ _ (W7 i I W)). apply QR.
Qed.
End Zero.
Lemma zero_example : let o := assign (SetQuantile true) (create five_points 5 (fun i _ => if Nat.eqb i 2 then 0 else 1)) in
  sorts_indices isort_index /\ reachable isort_index o /\ o_mode o = Average /\ o_quantile o = true /\ o_locs o = d_rows (o_data o) /\
  worked (o_par o) (fun _ => false) 2 /\ (forall k, (k < o_locs o)%nat -> o_weight o 2 k = 0) /\
  (forall i, (i < o_locs o)%nat -> (forall k, (k < o_locs o)%nat -> o_weight o i k = 0) \/
     proper_weights (o_locs o) (o_weight o i) /\ forall j, (j < d_vars (o_data o))%nat -> light (o_locs o) (o_weight o i) (d_x (o_data o) j)).
Proof.
  cbv zeta. split; [exact isort_index_ok|]. split; [repeat constructor|]. split; [reflexivity|]. split; [reflexivity|]. split; [reflexivity|].
  split; [intros j _; reflexivity|]. split; [intros; reflexivity|]. intros i I. cbn [o_weight assign create]. destruct (Nat.eqb i 2); [left; reflexivity|right].
  destruct average_example as (_ & _ & _ & _ & PW & LI & _). split; [exact (PW i I)|]. intros j J. exact (LI i j I J).
Qed.
