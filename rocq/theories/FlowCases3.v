(** More proofs about whole runs of FlowModel.v: default bounds, cancellation, undefined runs, global weights. *)
From Coq Require Import Reals Bool List Arith ZArith Permutation Lia Lra.
From Verif Require Import Outcome XReal XRealFacts Sums KernelModel KernelSpec KernelProofs GoldModel GoldSpec GoldProofs GoldProofs2
  VarModel VarSpec VarProofs FlowModel FlowProofs FlowCases FlowCases2.
Import ListNotations.
Local Open Scope nat_scope.

Section P.
Variables C B : Type.
Notation object := (object C).
Notation world := (world C B).
Implicit Types (W : world) (o : object).

(** ** C124: default bounds *)
Definition default_bounds o : Prop := o_auto_bw o = true /\ o_lower o = None /\ o_upper o = None.

(** The fresh weight of a run that was not cancelled. *)
Lemma fresh_of_run W srt o b o' : sorter srt -> flow_fit W srt o = Returned (Coefficients b) o' ->
  o_auto_bw o = true -> o_terminated o' = false ->
  exists o1, o_weight o1 = o_weight o /\ lower_bound o1 = lower_bound o /\ upper_bound W o1 = upper_bound W o /\
    let r := optimize (bw_criterion W o1) (o_weight o1) (lower_bound o1) (upper_bound W o1) [] in
    rresult r = Fresh (o_weight o') /\ o_blist o' = bandwidth_criterion (rmap r).
Proof.
  intros So H Ab0 T. revert H.
  destruct (run_fit C B W srt o) as [S0|S0 A E|o1 S0 A E|o1 S0 A E S1|o1 S0 AV S1 Ab E|o1 o2 S0 AV S1 Ab E|
      o1 o2 S0 AV S1 Ab E S2|o1 o2 S0 AV S1 AB S2]; intros H; try discriminate.
  destruct (w_final W (o_x o2) (o_weight o2)) as [[b' st]| |]; inversion H; subst. cbn in T. cbn.
  apply orb_false_iff in T as [T _].
  assert (F : o_auto_bw o1 = o_auto_bw o /\ o_weight o1 = o_weight o /\ o_lower o1 = o_lower o /\ o_upper o1 = o_upper o).
  { destruct AV as [[_ ->]|[_ E]]; auto. destruct (select_inv _ _ _ _ _ _ So E) as (sel & rep & vl & x' & _ & _ & _ & _ & _ & -> & _).
    cbn. destruct rep; auto. }
  destruct F as (F1 & F2 & F3 & F4). destruct AB as [[Q _]|[_ E]]; [congruence|].
  exists o1. split; auto. split; [unfold lower_bound; rewrite F2, F3; auto|].
  split; [unfold upper_bound; rewrite F2, F4; auto|]. unfold bw_stage in E.
  destruct (rresult (optimize (bw_criterion W o1) (o_weight o1) (lower_bound o1) (upper_bound W o1) [])) as [|wr| |] eqn:R;
    inversion E; subst; try discriminate. cbn. auto.
Qed.

Lemma C124_fixed_main W srt o b o' : sorter srt -> flow_fit W srt o = Returned (Coefficients b) o' ->
  default_bounds o -> o_terminated o' = false -> wadaptive (o_weight o) = false -> (0 < w_maxd W)%R ->
  (0 < wvalue (o_weight o') < w_maxd W)%R.
Proof.
  intros So H (Ab & Lo & Up) T Ad M. destruct (fresh_of_run W srt o b o' So H Ab T) as (o1 & E1 & E2 & E3 & Fr & _).
  assert (lower_bound o = 0%R) as L by (unfold lower_bound; rewrite Lo, Ad; auto).
  assert (upper_bound W o = w_maxd W) as U by (unfold upper_bound; rewrite Up, Ad; auto).
  rewrite E1, E2, E3, L, U in Fr. eapply C23_main; eauto.
Qed.

Lemma C124_adaptive_main W srt o b o' : sorter srt -> flow_fit W srt o = Returned (Coefficients b) o' ->
  default_bounds o -> o_terminated o' = false -> wadaptive (o_weight o) = true -> 20 <= w_n W ->
  integer (wvalue (o_weight o')).
Proof.
  intros So H (Ab & Lo & Up) T Ad M. destruct (fresh_of_run W srt o b o' So H Ab T) as (o1 & E1 & E2 & E3 & Fr & _).
  assert (lower_bound o = 20%R) as L by (unfold lower_bound; rewrite Lo, Ad; auto).
  assert (upper_bound W o = INR (w_n W)) as U by (unfold upper_bound; rewrite Up, Ad; auto).
  assert (Li : integer 20) by (exists 20%Z; reflexivity).
  assert (Ui : integer (INR (w_n W))) by (exists (Z.of_nat (w_n W)); apply INR_IZR_INZ).
  assert (Lu : (20 <= INR (w_n W))%R) by (apply (le_INR 20) in M; cbn in M; lra).
  assert (Ad1 : wadaptive (o_weight o1) = true) by (rewrite E1; auto).
  rewrite E2, E3, L, U in Fr.
  destruct (C21_main _ _ _ _ _ _ (bw_no_nan C B W o1) Fr) as (v & Ev & _).
  destruct (C24_main (bw_criterion W o1) (o_weight o1) 20 (INR (w_n W)) [] Ad1 Li Ui Lu) as [K _].
  apply (K _ _ Ev).
Qed.

Lemma golden_bounds : (/ 2 < golden < 5 / 8)%R.
Proof.
  assert (S : (2 < sqrt 5 < 9 / 4)%R); [|unfold golden; lra].
  assert (sqrt 5 * sqrt 5 = 5)%R by (apply sqrt_sqrt; lra). assert (0 <= sqrt 5)%R by apply sqrt_pos. split; nra.
Qed.

(** Two equal values end the search at once with the second bandwidth. *)
Lemma flat_search crit w lo up v : v <> XN -> (forall n, v <> XI n) -> v <> XF DBL_MAX ->
  crit 0 (first_weight w lo up) = Answer true v -> crit 1 (second_weight w lo up) = Answer true v ->
  rresult (optimize crit w lo up []) = Fresh (second_weight w lo up).
Proof.
  intros N1 N2 N3 A1 A2. unfold optimize. rewrite A1, A2. cbn [negb andb].
  replace (is_max_dbl v && is_max_dbl v) with false.
  2:{ symmetry. destruct (is_max_dbl v) eqn:M; auto. exfalso. apply is_max_dbl_eq in M. auto. }
  assert (G : guard (init_vars w lo up [] v v) = false).
  { unfold guard. cbn [s1 s2 f1 f2 init_vars andb].
    replace (xltb (XF eps) (xabs (xsub v v))) with false; [rewrite !andb_false_r; reflexivity|].
    symmetry. destruct v as [r| |n|]; try congruence.
    - unfold xsub. cbn [xopp]. destruct (Reqb r 0) eqn:Z.
      + apply Reqb_true in Z. subst. cbn. apply Rltb_false. rewrite Rabs_R0. unfold eps. lra.
      + cbn. apply Rltb_false. replace (r + - r)%R with 0%R by ring. rewrite Rabs_R0. unfold eps. lra.
    - cbn. apply Rltb_false. rewrite Rabs_R0. unfold eps. lra. }
  generalize 100. intros fuel. cbn [loop]. rewrite G. cbn [s1 s2 init_vars andb rresult xopt].
  unfold better. rewrite xltb_irr. destruct (second_weight w lo up) eqn:S. unfold second_weight in S. inversion S; subst. reflexivity.
Qed.

Lemma C124_small_main W srt o z : default_bounds o -> o_auto_vars o = false -> o_terminated o = false ->
  w_stop0 W = false -> w_stop2 W = false -> wadaptive (o_weight o) = true -> w_n W < 20 -> z <> DBL_MAX ->
  (forall k x w, w_bfit W k x w = (false, Some (XF z))) ->
  (forall x w, exists b, w_final W x w = Ok (b, false)) ->
  exists b o', flow_fit W srt o = Returned (Coefficients b) o' /\ o_terminated o' = false /\
    (INR (w_n W) < wvalue (o_weight o'))%R.
Proof.
  intros (Ab & Lo & Up) Av T S0 S2 Ad N Z Cb Fi.
  unfold flow_fit, checkpoint. rewrite S0, Av, Ab. unfold bw_stage.
  assert (Cr : forall k w, bw_criterion W o k w = Answer true (XF z)) by (intros k w; unfold bw_criterion; rewrite Cb, T; reflexivity).
  rewrite (flat_search (bw_criterion W o) (o_weight o) (lower_bound o) (upper_bound W o) (XF z)); try discriminate; auto; [|congruence].
  rewrite S2. cbn [o_x o_weight set_weight].
  destruct (Fi (o_x o) (second_weight (o_weight o) (lower_bound o) (upper_bound W o))) as [b Fb].
  rewrite Fb. eexists b, _. split; [reflexivity|]. cbn. rewrite T. split; auto.
  unfold lower_bound, upper_bound. rewrite Ad, Lo, Up. cbn.
  assert (N' : (INR (w_n W) <= 19)%R) by (assert (L19 : w_n W <= 19) by lia; apply le_INR in L19; cbn in L19; lra).
  pose proof golden_bounds as G. pose proof (rround_bounds (INR (w_n W) - golden * (INR (w_n W) - 20))) as R.
  nra.
Qed.

(** ** C125: cancellation *)
Lemma C125_sticky_main W srt o o' : sorter srt -> outcome_object C B (flow_fit W srt o) o' ->
  o_terminated o = true -> o_terminated o' = true.
Proof.
  intros So H T. revert H.
  assert (AVf : forall o1, after_vars C B W srt o o1 -> o_terminated o1 = true).
  { intros o1 [[_ ->]|[_ E]]; auto. destruct (select_inv _ _ _ _ _ _ So E) as (sel & rep & vl & x' & _ & _ & _ & _ & _ & -> & _).
    cbn. destruct rep; auto. }
  destruct (run_fit C B W srt o) as [S0|S0 A E|o1 S0 A E|o1 S0 A E S1|o1 S0 AV S1 Ab E|o1 o2 S0 AV S1 Ab E|
      o1 o2 S0 AV S1 Ab E S2|o1 o2 S0 AV S1 AB S2]; intros [[v H]|H]; try discriminate;
    try (inversion H; subst; cbn; auto; fail).
  - exfalso; eapply select_nofail; eauto.
  - inversion H; subst. destruct (bw_fields C B W o1 o') as (_ & _ & _ & K & _); auto.
  - assert (K : o_terminated o2 = true).
    { destruct AB as [[_ ->]|[_ E]]; auto. destruct (bw_fields C B W o1 o2) as (_ & _ & _ & K & _); auto. }
    destruct (w_final W (o_x o2) (o_weight o2)) as [[b st]| |]; inversion H; subst; cbn; rewrite ?K; auto.
  - assert (K : o_terminated o2 = true).
    { destruct AB as [[_ ->]|[_ E]]; auto. destruct (bw_fields C B W o1 o2) as (_ & _ & _ & K & _); auto. }
    destruct (w_final W (o_x o2) (o_weight o2)) as [[b st]| |]; inversion H; subst; auto.
Qed.

Lemma cand_columns o : start C o < length (o_x o) ->
  map (nth_error (o_x o)) ((if o_intercept o then [0] else []) ++ candidates o) = map Some (o_x o).
Proof.
  intros L.
  assert (K : (if o_intercept o then [0] else []) ++ candidates o = seq 0 (length (o_x o))).
  { unfold candidates, start in *. destruct (o_intercept o); [|rewrite Nat.sub_0_r; reflexivity].
    destruct (length (o_x o)) as [|n]; [lia|]. cbn. rewrite Nat.sub_0_r. reflexivity. }
  rewrite K. clear. set (x := o_x o). clearbody x.
  assert (G : forall (p : list C), map (nth_error (p ++ x)) (seq (length p) (length x)) = map Some x).
  { induction x as [|a x IH]; intros p; cbn; auto. f_equal; [rewrite nth_error_app2, Nat.sub_diag; auto|].
    specialize (IH (p ++ [a])). rewrite <- app_assoc in IH. cbn in IH. rewrite app_length in IH; cbn in IH.
    rewrite Nat.add_1_r in IH. exact IH. }
  exact (G []).
Qed.

Lemma C125_after_cancel_main W srt o : sorter srt -> o_terminated o = true ->
  w_stop0 W = false -> w_stop1 W = false -> w_stop2 W = false ->
  (o_auto_vars o = true -> (if o_intercept o then 1 else 0) < length (o_x o)) ->
  forall b st, w_final W (o_x o) (o_weight o) = Ok (b, st) ->
  exists o', flow_fit W srt o = Returned (Coefficients b) o' /\ o_x o' = o_x o /\ o_weight o' = o_weight o /\ o_terminated o' = true.
Proof.
  intros So T S0 S1 S2 Cd b st Fi.
  assert (Bw : forall o1, o_terminated o1 = true -> o_x o1 = o_x o -> o_weight o1 = o_weight o ->
    exists o2, bw_stage W o1 = Go o2 /\ o_x o2 = o_x o /\ o_weight o2 = o_weight o /\ o_terminated o2 = true).
  { intros o1 T1 X1 W1. unfold bw_stage, optimize.
    assert (Cr : forall k w, exists v, bw_criterion W o1 k w = Answer false v).
    { intros k w. unfold bw_criterion. destruct (w_bfit W k (o_x o1) w). rewrite T1. cbn. eauto. }
    destruct (Cr 0 (first_weight (o_weight o1) (lower_bound o1) (upper_bound W o1))) as [v1 ->].
    destruct (Cr 1 (second_weight (o_weight o1) (lower_bound o1) (upper_bound W o1))) as [v2 ->].
    cbn. eexists; split; [reflexivity|]. cbn. auto. }
  assert (Vs : o_auto_vars o = true -> exists o1, select_stage W srt o = Go o1 /\ o_auto_bw o1 = o_auto_bw o /\
    o_x o1 = o_x o /\ o_weight o1 = o_weight o /\ o_terminated o1 = true).
  { intros Av. specialize (Cd Av).
    assert (Cn : candidates o <> []).
    { intros Q. apply (f_equal (@length nat)) in Q. rewrite cand_length in Q. unfold start in Q. cbn in Q. lia. }
    destruct (search_spec (var_criterion W o) (candidates o)) as (s & ms & R1 & [R2 R3] & R4).
    assert (s = false) as ->.
    { destruct s; auto. destruct (R4 eq_refl) as [_ Ln]. destruct ms as [|[idx v] ms].
      - cbn in Ln. destruct (candidates o); [congruence|cbn in Ln; lia].
      - destruct (R2 0 idx v eq_refl) as (vs & _ & _ & K). exfalso.
        assert (Fk : fst (var_criterion W o (0 + 0) vs) = false).
        { unfold var_criterion. destruct (w_vfit W (0 + 0) _ _). rewrite T. reflexivity. }
        apply K in Fk as [Q _]. discriminate. }
    assert (E : vs_optimize (var_criterion W o) srt (candidates o) (o_threshold o) = Ok (candidates o, None)).
    { unfold vs_optimize. rewrite R1. reflexivity. }
    destruct (cols_ok C (o_x o) _ (idx_range C o (candidates o) Cn (incl_refl _))) as (x' & X1 & X2).
    unfold select_stage. rewrite E. destruct (candidates o) as [|c cs] eqn:Q; [congruence|]. rewrite X1. cbn [named_list].
    eexists; split; [reflexivity|]. cbn. repeat split; auto.
    rewrite <- Q in X2. unfold index2uvec in X2.
    apply (map_Some_inj (A:=C)). rewrite X2. rewrite <- cand_columns; auto.
    }
  assert (Fin : forall o2, o_x o2 = o_x o -> o_weight o2 = o_weight o -> o_terminated o2 = true ->
    exists o', match w_final W (o_x o2) (o_weight o2) with
    | Ok (b, stopped) => Returned (Coefficients b) (set_terminated (o_terminated o2 || stopped) o2)
    | Throw => Threw o2
    | UB => Undefined
    end = Returned (Coefficients b) o' /\ o_x o' = o_x o /\ o_weight o' = o_weight o /\ o_terminated o' = true).
  { intros o2 X W2 T2. rewrite X, W2, Fi. eexists; split; [reflexivity|]. cbn. rewrite T2. auto. }
  unfold flow_fit, checkpoint. rewrite S0.
  destruct (o_auto_vars o) eqn:Av.
  - destruct (Vs eq_refl) as (o1 & -> & Ab1 & X1 & W1 & T1). rewrite S1.
    destruct (o_auto_bw o1).
    + destruct (Bw o1) as (o2 & -> & X2 & W2 & T2); auto. rewrite S2. apply Fin; auto.
    + apply Fin; auto.
  - destruct (o_auto_bw o).
    + destruct (Bw o) as (o2 & -> & X2 & W2 & T2); auto. rewrite S2. apply Fin; auto.
    + apply Fin; auto.
Qed.

(** ** C126: undefined runs *)
Lemma never_cancelled W o : o_terminated o = false -> (forall k x w, fst (w_vfit W k x w) = false) ->
  exists ms, search (var_criterion W o) (candidates o) = Ok (true, ms) /\
    2 * length ms = length (candidates o) * (length (candidates o) + 1) /\
    (forall p idx v, nth_error ms p = Some (idx, v) -> exists vs, snd (var_criterion W o p vs) = v).
Proof.
  intros T V. destruct (search_spec (var_criterion W o) (candidates o)) as (s & ms & R1 & [R2 R3] & R4).
  assert (A : forall k vs, fst (var_criterion W o k vs) = true).
  { intros k vs. unfold var_criterion. specialize (V k (picked (o_x o) (index2uvec vs (o_intercept o)))
      (mkWeight (wkernel (o_weight o)) (wadaptive (o_weight o)) DBL_MAX)). destruct (w_vfit W k _ _). cbn in *. rewrite T, V. reflexivity. }
  assert (s = true) as ->.
  { destruct s; auto. destruct (exists_last (R3 eq_refl)) as (m0 & [idx v] & ->).
    destruct (R2 (length m0) idx v) as (vs & _ & _ & K); [rewrite nth_error_app2, Nat.sub_diag; auto|].
    assert (F : fst (var_criterion W o (0 + length m0) vs) = false) by (apply K; split; auto; rewrite app_length; cbn; lia).
    rewrite A in F. discriminate. }
  exists ms. split; auto. split; [apply R4; auto|]. intros p idx v E. destruct (R2 p idx v E) as (vs & _ & K & _). eauto.
Qed.

Lemma C126_failed_main W srt o : sorter srt -> o_auto_vars o = true -> w_stop0 W = false -> o_terminated o = false ->
  (0 < o_threshold o)%R -> (forall k x w, w_vfit W k x w = (false, None)) -> flow_fit W srt o = Undefined.
Proof.
  intros So A S T Th V. apply select_undef_flow; auto.
  destruct (never_cancelled W o T) as (ms & R1 & R2 & R3); [intros; rewrite V; auto|].
  assert (Va : forall m, In m ms -> snd m = XF DBL_MAX).
  { intros [idx v] I. apply In_nth_error in I as [p I]. destruct (R3 p idx v I) as [vs E]. cbn. rewrite <- E.
    unfold var_criterion. rewrite V. reflexivity. }
  destruct (sort_groups_ok srt (length (candidates o)) ms) as [rep R]; auto.
  { intros m I. rewrite (Va m I). discriminate. }
  apply (C33_exact_main (var_criterion W o) srt (candidates o) (o_threshold o) ms rep So R1 R).
  intros i (p & a & b & -> & Ia & Ib & H).
  destruct (sort_groups_perm srt _ _ _ So R) as [P _].
  rewrite (Va a), (Va b) in H by (eapply Permutation_in; [exact P|eapply nth_error_In; eauto]).
  unfold xsub in H. cbn [xopp] in H. destruct (Reqb DBL_MAX 0) eqn:Z.
  { apply Reqb_true in Z. pose proof dbl_max_big. lra. }
  cbn in H. apply negb_true_iff, Rltb_false in H. lra.
Qed.

Lemma sort_groups_nonan srt n : forall ms r, sort_groups srt n ms = Ok r -> 2 * length ms = n * (n + 1) ->
  forall m, In m ms -> snd m <> XN.
Proof.
  induction n as [|n IH]; intros ms rep R L m I.
  - destruct ms; [destruct I|cbn in L; lia].
  - cbn [sort_groups] in R. destruct (Nat.ltb (length ms) (S n)) eqn:K; [discriminate|].
    destruct (existsb (fun m => xisnan (snd m)) (firstn (S n) ms)) eqn:X; [discriminate|].
    destruct (sort_groups srt n (skipn (S n) ms)) as [r'| |] eqn:R'; cbn [obind] in R; try discriminate.
    rewrite <- (firstn_skipn (S n) ms) in I. apply in_app_iff in I as [I|I].
    + intros E. assert (T : existsb (fun m => xisnan (snd m)) (firstn (S n) ms) = true).
      { apply existsb_exists. exists m; split; auto. rewrite E; auto. } congruence.
    + eapply IH; eauto. rewrite skipn_length. apply Nat.ltb_ge in K. nia.
Qed.

Lemma C126_nan_main W srt o k : sorter srt -> o_auto_vars o = true -> w_stop0 W = false -> o_terminated o = false ->
  (forall j x w, fst (w_vfit W j x w) = false) ->
  (let q := length (o_x o) - (if o_intercept o then 1 else 0) in 2 * S k <= q * (q + 1)) ->
  (forall x w, snd (w_vfit W k x w) = Some XN) -> flow_fit W srt o = Undefined.
Proof.
  intros So A S T V Q N. apply select_undef_flow; auto.
  destruct (never_cancelled W o T V) as (ms & R1 & R2 & R3).
  rewrite cand_length in R2. unfold start in R2. cbv zeta in Q.
  destruct (nth_error ms k) as [[idx v]|] eqn:E.
  2:{ apply nth_error_None in E. lia. }
  destruct (R3 k idx v E) as [vs Ev].
  assert (v = XN) as ->.
  { rewrite <- Ev. unfold var_criterion. specialize (N (picked (o_x o) (index2uvec vs (o_intercept o)))
      (mkWeight (wkernel (o_weight o)) (wadaptive (o_weight o)) DBL_MAX)).
    specialize (V k (picked (o_x o) (index2uvec vs (o_intercept o)))
      (mkWeight (wkernel (o_weight o)) (wadaptive (o_weight o)) DBL_MAX)).
    destruct (w_vfit W k _ _) as [s a]. cbn in *. subst. rewrite T. reflexivity. }
  unfold vs_optimize. rewrite R1. cbn [obind].
  destruct (sort_groups srt (length (candidates o)) ms) as [rep| |] eqn:R; cbn [obind]; auto.
  - exfalso. eapply (sort_groups_nonan _ _ _ _ R); [rewrite cand_length; unfold start; exact R2|eapply nth_error_In; eauto|reflexivity].
  - exfalso. eapply sort_groups_nothrow; eauto.
Qed.

(** ** C127: the selection ignores the bandwidth *)
Definition same_but_bandwidth o o2 : Prop :=
  exists h l, o2 = set_weight (mkWeight (wkernel (o_weight o)) (wadaptive (o_weight o)) h) l o.

Lemma select_weight W srt o h l : let w := mkWeight (wkernel (o_weight o)) (wadaptive (o_weight o)) h in
  select_stage W srt (set_weight w l o) =
  match select_stage W srt o with
  | Go o1 => Go (set_weight w l o1) | Failed o1 => Failed (set_weight w l o1) | Undef => Undef
  end.
Proof.
  intros w. unfold select_stage. change (var_criterion W (set_weight w l o)) with (var_criterion W o).
  change (candidates (set_weight w l o)) with (candidates o).
  change (o_threshold (set_weight w l o)) with (o_threshold o). change (o_x (set_weight w l o)) with (o_x o).
  change (o_intercept (set_weight w l o)) with (o_intercept o).
  destruct (vs_optimize (var_criterion W o) srt (candidates o) (o_threshold o)) as [[sel rep]| |]; auto.
  destruct sel as [|s sel]; [destruct rep; reflexivity|].
  destruct (cols (o_x o) (index2uvec (s :: sel) (o_intercept o))) as [x'| |]; auto; [|destruct rep; reflexivity].
  destruct (named_list (candidates o) match rep with Some l0 => l0 | None => [] end) as [vl| |]; auto; destruct rep; reflexivity.
Qed.

Lemma C127_ignored_main W srt o o2 v v2 o' o2' : sorter srt -> o_auto_vars o = true -> w_stop0 W = false -> same_but_bandwidth o o2 ->
  flow_fit W srt o = Returned v o' -> flow_fit W srt o2 = Returned v2 o2' ->
  o_selected o2' = o_selected o' /\ o_x o2' = o_x o' /\ o_vlist o2' = o_vlist o'.
Proof.
  intros So A S (h & l & Eo) H1 H2.
  assert (G : forall o v o', o_auto_vars o = true -> flow_fit W srt o = Returned v o' ->
    exists o1, select_stage W srt o = Go o1 /\ o_selected o' = o_selected o1 /\ o_x o' = o_x o1 /\ o_vlist o' = o_vlist o1).
  { clear - So S. intros o v o' A. destruct (run_fit C B W srt o) as [S0|S0 A1 E|o1 S0 A1 E|o1 S0 A1 E S1|o1 S0 AV S1 Ab E|o1 o2 S0 AV S1 Ab E|
      o1 o2 S0 AV S1 Ab E S2|o1 o2 S0 AV S1 AB S2]; intros H; try discriminate; try congruence.
    - inversion H; subst. exists o1; auto.
    - inversion H; subst. destruct AV as [[Q _]|[_ E1]]; [congruence|]. exists o1. split; auto. cbn.
      destruct (bw_fields C B W o1 o2) as (X & Se & Vl & _); auto.
    - destruct AV as [[Q _]|[_ E1]]; [congruence|]. exists o1. split; auto.
      destruct (w_final W (o_x o2) (o_weight o2)) as [[b st]| |]; inversion H; subst; cbn.
      destruct AB as [[_ ->]|[_ E2]]; auto. destruct (bw_fields C B W o1 o2) as (X & Se & Vl & _); auto. }
  destruct (G o v o' A H1) as (o1 & E1 & X1 & X2 & X3).
  assert (A2 : o_auto_vars o2 = true) by (rewrite Eo; cbn; auto).
  destruct (G o2 v2 o2' A2 H2) as (o3 & E3 & Y1 & Y2 & Y3).
  rewrite X1, X2, X3, Y1, Y2, Y3. subst o2. rewrite select_weight, E1 in E3. inversion E3; subst. auto.
Qed.
End P.

(** Kernels at distances far below the bandwidth. *)
Lemma K_near_one k d h : (0 <= d < h)%R -> (1 - 3 * (d / h) <= K k d h <= 1)%R.
Proof.
  intros H. assert (h0 : (0 < h)%R) by lra. split; [|apply K_le_1; lra].
  pose proof (ratio_range d h ltac:(lra) h0 ltac:(lra)) as Rr. set (r := (d / h)%R) in *.
  assert (E : forall x : R, (1 + x <= exp x)%R).
  { intros x. destruct (Req_dec x 0) as [->|N]; [rewrite exp_0; lra|]. left. apply exp_ineq1; auto. }
  unfold K. fold r. destruct k; try (destruct (Rlt_dec d h); [|lra]).
  - specialize (E (- r ^ 2 / 2)%R). assert (r ^ 2 <= r)%R by nra. lra.
  - specialize (E (- r)%R). lra.
  - assert (r ^ 2 <= r)%R by nra. assert (0 <= r ^ 2)%R by nra. nra.
  - assert (0 <= r ^ 2)%R by nra. assert (r ^ 2 <= r)%R by nra. assert (0 <= r ^ 3 <= r)%R by nra. set (c := (r ^ 3)%R) in *. nra.
  - lra.
Qed.

Lemma filter_short {A} (f : A -> bool) l : length (filter f l) <= length l.
Proof. induction l as [|a l IH]; cbn; [lia|]. destruct (f a); cbn; lia. Qed.

Lemma C127_global_main k (adaptive : bool) xs (ds : list R) : xvals xs ds -> nonneg ds ->
  (if adaptive then (count_zero ds < length ds)%nat /\ (INR (length ds) < DBL_MAX)%R else Forall (fun d => (d < DBL_MAX)%R) ds) ->
  exists ws, returns_values (bw_weight k adaptive (XF DBL_MAX) xs) ws /\
    Forall2 (fun d w => (1 - 3 * ((if adaptive then INR (length ds) else d) / DBL_MAX) <= w <= 1)%R) ds ws.
Proof.
  intros Xv Nn H. pose proof dbl_max_big as Big.
  assert (Us : usable adaptive DBL_MAX ds).
  { destruct adaptive; cbn; [|lra]. destruct H as [H1 H2]. split; [lra|]. split; auto.
    apply lt_INR in H1. lra. }
  destruct (weight_val k adaptive (XF DBL_MAX) DBL_MAX xs ds eq_refl Xv Nn Us) as (xw & h & Ew & Ef & hp & Rv).
  exists (map (fun d => K k d h) ds). split; [exists xw; auto|].
  assert (G : forall l, (forall d, In d l -> In d ds) ->
    Forall2 (fun d w => (1 - 3 * ((if adaptive then INR (length ds) else d) / DBL_MAX) <= w <= 1)%R) l (map (fun d => K k d h) l));
    [|apply G; auto].
  induction l as [|d l IH]; intros Sub; cbn; constructor; [|apply IH; intros; apply Sub; right; auto].
  assert (Id : In d ds) by (apply Sub; left; auto).
  assert (d0 : (0 <= d)%R) by (eapply Forall_forall in Nn; eauto).
  destruct adaptive; cbn in Ef.
  - destruct H as [H1 H2]. destruct Ef as [_ Ef]. destruct (Ef ltac:(lra)) as (m & [Im Km] & Eh).
    assert (dm : (d <= m)%R).
    { destruct (Rle_lt_dec d m); auto. exfalso. unfold count_le in Km. destruct Km as [_ Km].
      assert (length (filter (fun x => if Rle_dec x m then true else false) ds) < length ds); [|lia].
      clear - Id r. induction ds as [|a t IH]; [destruct Id|]. cbn. destruct Id as [->|Id].
      - destruct (Rle_dec d m); [lra|]. pose proof (filter_short (fun x => if Rle_dec x m then true else false) t). cbn. lia.
      - specialize (IH Id). destruct (Rle_dec a m); cbn; lia. }
    set (n := INR (length ds)) in *.
    assert (n0 : (0 < n)%R) by (apply lt_0_INR; destruct ds; [destruct Id|cbn; lia]).
    assert (m0 : (0 < m)%R).
    { destruct (Rle_lt_dec m 0) as [m0|]; auto. assert (m = 0%R) by lra. subst m. rewrite Rmult_0_r in Eh. lra. }
    assert (Eq : (d / h = d / m * (n / DBL_MAX))%R) by (rewrite Eh; field; repeat split; lra).
    assert (R1 : (0 <= d / m <= 1)%R).
    { split; [apply ratio_nonneg; auto|]. apply (Rmult_le_reg_r m); auto. unfold Rdiv. rewrite Rmult_assoc, Rinv_l by lra. lra. }
    assert (R2 : (0 < n / DBL_MAX < 1)%R).
    { split; [apply Rdiv_lt_0_compat; lra|]. apply (Rmult_lt_reg_r DBL_MAX); [lra|]. unfold Rdiv. rewrite Rmult_assoc, Rinv_l by lra. lra. }
    assert (Dh : (d < h)%R).
    { assert (d / h < 1)%R by (rewrite Eq; nra). apply (Rmult_lt_reg_r (/ h)); [apply Rinv_0_lt_compat; auto|].
      rewrite Rinv_r by lra. auto. }
    pose proof (K_near_one k d h (conj d0 Dh)) as N. rewrite Eq in N. split; [|lra]. nra.
  - subst h. apply K_near_one. eapply Forall_forall in H; eauto.
Qed.
