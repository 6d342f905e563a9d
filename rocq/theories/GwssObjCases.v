(** Proofs for C168: failures, cancelled runs and results left from earlier runs. *)
From Coq Require Import Reals Bool List Arith Lia Lra Permutation.
From Verif Require Import Outcome XReal XRealFacts RSort Sums DiagModel DiagProofs GwssModel GwssSpec GwssProofs GwssCases GwssValues GwssObjModel GwssObjSpec GwssObjProofs GwssObjMain GwssObjCorr.
Import ListNotations.
Local Open Scope R_scope.

Definition quartile_at_total {A : Type} (x : outcome A) : Prop := (exists a, x = Ok a) \/ x = UB.

Section Obj.
Variable sort_index : list R -> list nat.

Lemma null_zeros r c : null (zeros r c) r c.
Proof.
  split.
  - apply shape_rows; [unfold zeros; apply repeat_length|]. intros i I. exists (repeat (XF 0) c). split; [now apply zeros_row|apply repeat_length].
  - intros i j I J. rewrite (entry_put _ _ _ _ (zeros_row r c i I)). now apply repeat_at.
Qed.

Lemma calculator_main o : reachable sort_index o ->
  (o_par o = OpenMP -> o_mode o = Average -> o_calc o = GWAverageOmp) /\
  (o_par o = OpenMP -> o_mode o = Correlation -> o_calc o = GWCorrelationOmp) /\
  (o_par o <> OpenMP -> o_mode o = Average -> o_calc o = GWAverageSerial) /\
  (o_par o <> OpenMP -> o_mode o = Correlation -> o_calc o = GWCorrelationSerial) /\
  In (o_par o) [SerialOnly; OpenMP; MPI_Serial; MPI_MP].
Proof.
  intros R. rewrite (calc_reachable sort_index o R).
  split; [now intros -> ->|]. split; [now intros -> ->|].
  split; [intros P ->; destruct (o_par o); try reflexivity; contradiction|]. split; [intros P ->; destruct (o_par o); try reflexivity; contradiction|].
  induction R as [dd n w|s o _ IH|stop early order o o' _ IH E|stop early order o o' _ IH E].
  - cbn. tauto.
  - destruct s; cbn [assign]; try exact IH. destruct p; cbn [able o_par]; try exact IH; cbn; tauto.
  - destruct (run_settings _ stop early order o o' (or_introl E)) as (_ & _ & _ & _ & _ & _ & P & _). now rewrite P.
  - destruct (run_settings _ stop early order o o' (or_intror E)) as (_ & _ & _ & _ & _ & _ & P & _). now rewrite P.
Qed.

Lemma average_case (SI : sorts_indices sort_index) o stop order : reachable sort_index o -> o_mode o = Average -> o_locs o = d_rows (o_data o) ->
  Permutation order (seq 0 (o_locs o)) ->
  (forall i, (i < o_locs o)%nat -> worked (o_par o) stop i -> proper_weights (o_locs o) (o_weight o i)) ->
  (o_quantile o = true -> forall i j, (i < o_locs o)%nat -> worked (o_par o) stop i -> (j < d_vars (o_data o))%nat ->
     light (o_locs o) (o_weight o i) (d_x (o_data o) j)) ->
  let n := o_locs o in let c := d_vars (o_data o) in
  exists o', run sort_index stop false order o = Returns o' /\ same_settings o o' /\
    (o_term o' = true <-> o_term o = true \/ exists i, (i < n)%nat /\ stop i = true) /\
    (shape (s_mean (o_stats o')) n c /\ shape (s_var (o_stats o')) n c /\ shape (s_sd (o_stats o')) n c /\
     shape (s_skew (o_stats o')) n c /\ shape (s_cv (o_stats o')) n c) /\
    (forall i j, (i < n)%nat -> (j < c)%nat ->
       (worked (o_par o) stop i -> averages n (o_weight o i) (d_x (o_data o) j) (o_stats o') i j) /\
       (~ worked (o_par o) stop i -> has (s_mean (o_stats o')) i j 0 /\ has (s_var (o_stats o')) i j 0 /\ has (s_sd (o_stats o')) i j 0 /\
          has (s_skew (o_stats o')) i j 0 /\ entry (s_cv (o_stats o')) i j = Some XN)) /\
    (if o_quantile o
     then (shape (s_median (o_stats o')) n c /\ shape (s_iqr (o_stats o')) n c /\ shape (s_qi (o_stats o')) n c) /\
       forall i j, (i < n)%nat -> (j < c)%nat ->
          (worked (o_par o) stop i -> quantiles n (o_weight o i) (d_x (o_data o) j) (o_stats o') i j) /\
          (~ worked (o_par o) stop i -> has (s_median (o_stats o')) i j 0 /\ has (s_iqr (o_stats o')) i j 0 /\ has (s_qi (o_stats o')) i j 0)
     else s_median (o_stats o') = s_median (o_stats o) /\ s_iqr (o_stats o') = s_iqr (o_stats o) /\ s_qi (o_stats o') = s_qi (o_stats o)) /\
    s_cov (o_stats o') = s_cov (o_stats o) /\ s_corr (o_stats o') = s_corr (o_stats o) /\ s_scorr (o_stats o') = s_scorr (o_stats o).
Proof. intros R MO ROWS P PW LI. cbv zeta. apply average_main; auto. now apply calc_reachable with (sort_index := sort_index). Qed.

Lemma correlation_case (SI : sorts_indices sort_index) o stop order : reachable sort_index o -> o_mode o = Correlation -> o_locs o = d_rows (o_data o) ->
  (2 <= d_vars (o_data o))%nat -> Permutation order (seq 0 (o_locs o)) ->
  (forall i, (i < o_locs o)%nat -> worked (o_par o) stop i -> proper_weights (o_locs o) (o_weight o i)) ->
  let n := o_locs o in let c := d_vars (o_data o) in
  exists pairs o', NoDup pairs /\ (forall j k, In (j, k) pairs <-> (j < k < c)%nat /\ (o_first o = true -> j = 0%nat)) /\
    run sort_index stop false order o = Returns o' /\ same_settings o o' /\
    (o_term o' = true <-> o_term o = true \/ exists i, (i < n)%nat /\ stop i = true) /\
    (shape (s_mean (o_stats o')) n c /\ shape (s_var (o_stats o')) n c /\ shape (s_cov (o_stats o')) n (length pairs) /\
     shape (s_corr (o_stats o')) n (length pairs) /\ shape (s_scorr (o_stats o')) n (length pairs)) /\
    (forall i j, (i < n)%nat -> (j < c)%nat ->
       (worked (o_par o) stop i -> has (s_mean (o_stats o')) i j (wmean n (o_weight o i) (d_x (o_data o) j)) /\
          has (s_var (o_stats o')) i j (wcov n (o_weight o i) (d_x (o_data o) j) (d_x (o_data o) j))) /\
       (~ worked (o_par o) stop i -> has (s_mean (o_stats o')) i j 0 /\ has (s_var (o_stats o')) i j 0)) /\
    (forall i t j k, (i < n)%nat -> nth_error pairs t = Some (j, k) ->
       (worked (o_par o) stop i -> correlations n (o_weight o i) (d_x (o_data o) j) (d_x (o_data o) k) (o_stats o') i t) /\
       (~ worked (o_par o) stop i -> has (s_cov (o_stats o')) i t 0 /\ has (s_corr (o_stats o')) i t 0 /\ has (s_scorr (o_stats o')) i t 0)) /\
    s_sd (o_stats o') = s_sd (o_stats o) /\ s_skew (o_stats o') = s_skew (o_stats o) /\ s_cv (o_stats o') = s_cv (o_stats o) /\
    s_median (o_stats o') = s_median (o_stats o) /\ s_iqr (o_stats o') = s_iqr (o_stats o) /\ s_qi (o_stats o') = s_qi (o_stats o).
Proof.
  intros R MO ROWS V P PW. cbv zeta. destruct (C62_main (o_first o) (d_vars (o_data o)) V) as (pairs & ND & IN & LEN & ROW).
  destruct (correlation_main sort_index SI stop o ROWS V pairs LEN ROW order (calc_reachable sort_index o R) MO P PW) as (o' & H).
  exists pairs, o'. split; [exact ND|]. split; [exact IN|exact H].
Qed.

Lemma early_main o stop order : exists o', run sort_index stop true order o = Returns o' /\ same_settings o o' /\ o_stats o' = o_stats o /\ o_term o' = true.
Proof. exists (set_term true o). repeat split. Qed.
Lemma too_few_main o stop order : reachable sort_index o -> o_mode o = Correlation -> (d_vars (o_data o) < 2)%nat ->
  exists o', run sort_index stop false order o = Throws o' /\ same_settings o o' /\ o_term o' = o_term o /\
    null (s_mean (o_stats o')) (o_locs o) (d_vars (o_data o)) /\ null (s_var (o_stats o')) (o_locs o) (d_vars (o_data o)) /\
    s_sd (o_stats o') = s_sd (o_stats o).
Proof.
  intros R MO V. exists (set_stats (prepare o) o). split.
  - unfold run, summarise. rewrite (calc_reachable sort_index o R), MO, (proj2 (Nat.leb_gt _ _) V). destruct (o_par o); reflexivity.
  - split; [repeat split|]. split; [reflexivity|]. cbn [set_stats o_stats]. unfold prepare. rewrite MO. cbn. split; [apply null_zeros|]. split; [apply null_zeros|reflexivity].
Qed.
Lemma mismatch_main o stop order : reachable sort_index o -> o_locs o <> d_rows (o_data o) -> (0 < o_locs o)%nat -> stop 0%nat = false ->
  (o_mode o = Correlation -> (2 <= d_vars (o_data o))%nat) -> Permutation order (seq 0 (o_locs o)) ->
  (o_par o = OpenMP -> run sort_index stop false order o = Undefined) /\
  (o_par o <> OpenMP -> exists o', run sort_index stop false order o = Throws o' /\ same_settings o o' /\
     null (s_mean (o_stats o')) (o_locs o) (d_vars (o_data o)) /\ null (s_var (o_stats o')) (o_locs o) (d_vars (o_data o))).
Proof.
  intros R NE L S0 V P.
  assert (TA : forall i s, average_at sort_index o i s = Throw) by (intros; unfold average_at; now rewrite (proj2 (Nat.eqb_neq _ _) NE)).
  assert (TC : forall i s, correlation_at sort_index o i s = Throw) by (intros; unfold correlation_at; now rewrite (proj2 (Nat.eqb_neq _ _) NE)).
  assert (PG : forall step, (forall i s, step i s = Throw) -> forall t s, parallel stop step t order s = Gone).
  { intros step T. assert (I0 : In 0%nat order) by (apply (Permutation_in _ (Permutation_sym P)), in_seq; clear - L; lia). clear P.
    induction order as [|a l IH]; intros t s; [contradiction|]. cbn [parallel]. destruct (stop a) eqn:SA; [|now rewrite T].
    apply IH. destruct I0 as [->|I0]; [congruence|exact I0]. }
  assert (SG : forall step, (forall i s, step i s = Throw) -> forall t s, serial stop step t (seq 0 (o_locs o)) s = Threw_ s).
  { intros step T t s. clear - L S0 T. destruct (o_locs o) as [|k]; [inversion L|]. cbn [seq serial]. now rewrite S0, T. }
  assert (CR := calc_reachable sort_index o R). split.
  - intros PA. unfold run, summarise. rewrite CR, PA. destruct (o_mode o); cbn [calculator_of].
    + now rewrite PG.
    + rewrite (proj2 (Nat.leb_le _ _) (V eq_refl)). now rewrite PG.
  - intros PA. exists (set_stats (prepare o) o). split.
    + unfold run, summarise. rewrite CR. destruct (o_mode o).
      * destruct (o_par o); cbn [calculator_of]; try contradiction; now rewrite SG.
      * rewrite (proj2 (Nat.leb_le _ _) (V eq_refl)). destruct (o_par o); cbn [calculator_of]; try contradiction; now rewrite SG.
    + split; [repeat split|]. cbn [set_stats o_stats]. unfold prepare. destruct (o_mode o); [destruct (o_quantile o)|]; cbn; split; apply null_zeros.
Qed.
Lemma quartile_total xo cum k : quartile_at_total (quantile_at xo cum k).
Proof. unfold quantile_at. destruct (first_above k cum) as [[|m]|]; [now right| |destruct (length cum); [now right|]]; destruct (nth_error xo _); [left; eauto|now right|left; eauto|now right]. Qed.
Lemma quartiles_total o w j : quartile_at_total (quartiles sort_index (o_data o) w j).
Proof.
  unfold quartiles. destruct (normalise _ w) as [W|].
  - unfold quartile_stats, findq. cbv zeta. set (xo := rsort _). set (cum := cumsum _).
    destruct (quartile_total xo cum (1 / 4)) as [[a ->]| ->]; [|now right]. cbn [obind].
    destruct (quartile_total xo cum (2 / 4)) as [[b ->]| ->]; [|now right]. cbn [obind].
    destruct (quartile_total xo cum (3 / 4)) as [[e ->]| ->]; [|now right]. left. eexists. reflexivity.
  - unfold largest. destruct (nth_error _ _); [left; eauto|now right].
Qed.
Lemma all_of_total o w l : quartile_at_total (all_of (map (quartiles sort_index (o_data o) w) l)) /\
  forall j, In j l -> quartiles sort_index (o_data o) w j = UB -> all_of (map (quartiles sort_index (o_data o) w) l) = UB.
Proof.
  induction l as [|a l [IH1 IH2]]; cbn [map all_of]; [split; [left; eauto|intros j []]|].
  destruct (quartiles_total o w a) as [[t E]|E]; rewrite E; cbn [obind]; [|split; [now right|reflexivity]]. split.
  - destruct IH1 as [[r ->]| ->]; [left; eexists; reflexivity|now right].
  - intros j [->|J] U; [congruence|]. now rewrite (IH2 j J U).
Qed.
Lemma heavy_main (SI : sorts_indices sort_index) o stop order i j : reachable sort_index o -> o_mode o = Average -> o_quantile o = true -> o_locs o = d_rows (o_data o) ->
  Permutation order (seq 0 (o_locs o)) -> (forall k, stop k = false) -> (i < o_locs o)%nat -> (j < d_vars (o_data o))%nat ->
  (forall k, (k < o_locs o)%nat -> proper_weights (o_locs o) (o_weight o k)) ->
  (forall k, (k < o_locs o)%nat -> (forall m, (m < o_locs o)%nat -> d_x (o_data o) j k <= d_x (o_data o) j m) -> 1 / 4 < share (o_locs o) (o_weight o i) k) ->
  run sort_index stop false order o = Undefined.
Proof.
  intros R MO Q ROWS P NS I J PW HV.
  assert (QU : quartiles sort_index (o_data o) (o_weight o i) j = UB).
  { unfold quartiles. rewrite <- ROWS, (norm_share o _ (PW i I)). unfold quartile_stats. now rewrite (C60_ub_main sort_index SI (o_locs o) _ _ (Nat.le_lt_trans _ _ _ (Nat.le_0_l i) I) HV). }
  assert (AT : forall k s, quartile_at_total (average_at sort_index o k s)).
  { intros k s. unfold average_at. rewrite (proj2 (Nat.eqb_eq _ _) ROWS), Q. cbn [negb].
    destruct (all_of_total o (o_weight o k) (seq 0 (d_vars (o_data o)))) as [[[r ->]| ->] _]; [left; eexists; reflexivity|now right]. }
  assert (AU : forall s, average_at sort_index o i s = UB).
  { intros s. unfold average_at. rewrite (proj2 (Nat.eqb_eq _ _) ROWS), Q. cbn [negb].
    destruct (all_of_total o (o_weight o i) (seq 0 (d_vars (o_data o)))) as [_ H]. rewrite (H j); [reflexivity|apply in_seq; lia|exact QU]. }
  assert (PG : forall l, In i l -> forall t s, parallel stop (average_at sort_index o) t l s = Gone).
  { induction l as [|a l IH]; intros IN t s; [contradiction|]. cbn [parallel]. rewrite NS. destruct IN as [->|IN]; [now rewrite AU|].
    destruct (AT a s) as [[s' ->]| ->]; [now apply IH|reflexivity]. }
  assert (SG : forall l, In i l -> forall t s, serial stop (average_at sort_index o) t l s = Gone).
  { induction l as [|a l IH]; intros IN t s; [contradiction|]. cbn [serial]. rewrite NS. destruct IN as [->|IN]; [now rewrite AU|].
    destruct (AT a s) as [[s' ->]| ->]; [now apply IH|reflexivity]. }
  assert (I1 : In i (seq 0 (o_locs o))) by (apply in_seq; lia). assert (I2 : In i order) by now apply (Permutation_in _ (Permutation_sym P)).
  unfold run, summarise. rewrite (calc_reachable sort_index o R), MO. destruct (o_par o); cbn [calculator_of]; now rewrite ?SG, ?PG.
Qed.
Lemma status_main o stop early order o' : o_term o = true -> run sort_index stop early order o = Returns o' -> o_term o' = true.
Proof.
  intros T. unfold run. destruct early; [intros E; now injection E as <-|].
  assert (SE : forall step todo s t' s', serial stop step true todo s = Ended t' s' -> t' = true).
  { induction todo as [|a l IH]; intros s t' s'; cbn [serial]; [congruence|]. destruct (stop a); [congruence|]. destruct (step a s); [apply IH|discriminate|discriminate]. }
  assert (PE : forall step todo s t' s', parallel stop step true todo s = Ended t' s' -> t' = true).
  { induction todo as [|a l IH]; intros s t' s'; cbn [parallel]; [congruence|]. destruct (stop a); [apply IH|]. destruct (step a s); [apply IH|discriminate|discriminate]. }
  destruct (summarise _ _ _ _ _) as [t s|s|] eqn:E; intros H; try discriminate. injection H as <-. cbn.
  unfold summarise in E. rewrite T in E. destruct (o_calc o).
  - destruct (serial _ _ _ _ _) eqn:X; try discriminate. cbn in E. injection E as <- <-. now apply SE in X.
  - destruct (2 <=? _)%nat; [now apply SE in E|discriminate].
  - destruct (parallel _ _ _ _ _) eqn:X; try discriminate. cbn in E. injection E as <- <-. now apply PE in X.
  - destruct (2 <=? _)%nat; [now apply PE in E|discriminate].
Qed.
End Obj.
