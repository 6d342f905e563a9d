(** A GWDR object over several calls: single fits. *)
From Coq Require Import Reals Bool List Arith ZArith Lra Lia.
From Verif Require Import Outcome XReal XRealFacts KernelModel KernelProofs DistModel VarModel VarSpec VarProofs FlowModel FlowProofs GwdrModel GdObjModel GdObjSpec GdObjProofs.
Import ListNotations.
Local Open Scope R_scope.

Lemma round_rounds v : 0 <= v -> rounds_to v (round_half_up v).
Proof.
  intros V. unfold round_half_up, rounds_to. pose proof (base_Int_part (v + / 2)) as [A B].
  assert (P : (0 <= Int_part (v + / 2))%Z) by (apply Z.lt_succ_r, lt_IZR; rewrite succ_IZR; lra).
  split; [|split; lra]. exists (Z.to_nat (Int_part (v + / 2))). rewrite INR_IZR_INZ, Z2Nat.id by exact P. reflexivity.
Qed.
Lemma final_rounds n xs : Forall2 (fun x b => rounds_to (Rabs x * INR n) b) xs (final n xs).
Proof.
  unfold final. induction xs as [|x xs IH]; constructor; [|exact IH]. apply round_rounds.
  apply Rmult_le_pos; [apply Rabs_pos|apply pos_INR].
Qed.
Lemma located_twice cs ds : length ds = length cs -> located cs (located cs ds) = located cs ds.
Proof.
  unfold located. revert ds. induction cs as [|c cs IH]; intros [|d ds] H; try discriminate; [reflexivity|].
  cbn [combine map fst snd d_adaptive d_kernel d_bw]. f_equal. apply IH. cbn in H. lia.
Qed.
Lemma located_bws cs ds : length ds = length cs -> map d_bw (located cs ds) = map d_bw ds.
Proof.
  unfold located. revert ds. induction cs as [|c cs IH]; intros [|d ds] H; try discriminate; [reflexivity|].
  cbn [combine map fst snd d_bw]. f_equal. apply IH. cbn in H. lia.
Qed.
Lemma located_adaptive cs : forall ds, (forall d, In d ds -> d_adaptive d = true) -> forall d, In d (located cs ds) -> d_adaptive d = true.
Proof.
  unfold located. intros ds H d I. apply in_map_iff in I as ([c e] & <- & I). cbn [d_adaptive snd]. apply H. eapply in_combine_r, I.
Qed.
Lemma starts_adaptive n v : forall ds, (forall d, In d ds -> d_adaptive d = true) -> exists ds', starts n v ds = (Ok tt, ds') /\ length ds' = length ds.
Proof.
  induction ds as [|d ds IH]; intros H; [exists []; auto|]. cbn [starts]. unfold ends. rewrite (H d (or_introl eq_refl)).
  destruct IH as (ds' & E & L); [intros; apply H; right; assumption|]. rewrite E. eexists. split; [reflexivity|]. cbn. lia.
Qed.
Lemma starts_length n v : forall ds, length (snd (starts n v ds)) = length ds.
Proof. intros ds. rewrite <- (map_length kind), starts_kind, map_length. reflexivity. Qed.

Section P.
Variables (C Y Mat Se Diag Tel : Type).
Variable srt : list (list nat * xd) -> list (list nat * xd).
Variable global_aicc : list C -> Y -> option xd.
Variable local_aicc : Tel -> nat -> list C -> Y -> list dimension -> bool * option xd.
Variable bw_crit : Tel -> list C -> Y -> list dimension -> option xd.
Variable simplex : Tel -> list R -> (list R -> xd) -> gsl.
Variable fitting : Tel -> list C -> Y -> list dimension -> outcome (Mat * Se * bool).
Variable spoiled : Tel -> list C -> Y -> list dimension -> Se -> Se.
Variable report : list C -> Y -> Mat -> Se -> Diag * Se.
Notation object := (object C Y Mat Se Diag).
Notation select_stage := (select_stage srt global_aicc local_aicc).
Notation bw_stage := (bw_stage bw_crit simplex).
Notation fit_stage := (fit_stage fitting spoiled report).
Notation fit := (fit srt global_aicc local_aicc bw_crit simplex fitting spoiled report).
Notation step := (step srt global_aicc local_aicc bw_crit simplex fitting spoiled report).
Notation run := (run srt global_aicc local_aicc bw_crit simplex fitting spoiled report).
Notation call := (call C Y Tel).
Notation before := (before C Y Mat Se Diag Tel srt global_aicc local_aicc bw_crit simplex).

Lemma coords_go (o : object) : length (o_dims o) = length (o_coords o) -> coords_stage o = Go (set_dims (located (o_coords o) (o_dims o)) o).
Proof. intros L. unfold coords_stage. rewrite (place_located _ _ L). reflexivity. Qed.

(** ** A fit without selections. *)
Lemma plain_before t stop o : o_auto_vars o = false -> o_auto_bw o = false -> length (o_dims o) = length (o_coords o) -> stop 0%nat = false ->
  before t stop o = Go (set_dims (located (o_coords o) (o_dims o)) o).
Proof.
  intros AV AB L S0. unfold GdObjProofs.before, checkpoint at 1. rewrite S0. cbn [andthen]. rewrite (coords_go _ L). cbn [andthen]. unfold set_dims at 1.
  cbn [o_auto_vars]. rewrite AV. cbn [andthen]. unfold set_dims at 1. cbn [o_auto_bw]. rewrite AB. reflexivity.
Qed.
Lemma plain_guard (o : object) : matching o -> negb (forallb (placed (o_rows o)) (located (o_coords o) (o_dims o))) && Nat.ltb 0 (o_rows o) = false.
Proof. intros [_ H]. rewrite (located_placed _ _ H). reflexivity. Qed.
Lemma plain_main : forall (o : object) t stop m se st dg se', o_auto_vars o = false -> o_auto_bw o = false -> matching o -> quiet stop ->
  fitting t (o_x o) (o_y o) (located (o_coords o) (o_dims o)) = Ok (m, se, st) -> report (o_x o) (o_y o) m se = (dg, se') ->
  fit t stop o = (Matrix m, Object (o_coords o) (o_rows o) (o_x o) (o_y o) (located (o_coords o) (o_dims o)) (o_intercept o) false false (o_threshold o)
    (o_maxiter o) m se' dg (o_selected o) (o_vlist o) (o_term o || st)).
Proof.
  intros o t stop m se st dg se' AV AB M Q F RP. rewrite fit_before, (plain_before t stop o AV AB (proj1 M) (Q 0%nat)). cbn [andthen]. unfold fit_stage.
  unfold set_dims at 1 2 3 4 5 6. cbn [o_rows o_dims]. rewrite (plain_guard o M). unfold set_dims at 1 2 3. cbn [o_x o_y o_dims]. rewrite F. unfold checkpoint. rewrite (Q 4%nat). cbn [andthen].
  unfold set_dims at 1 2. cbn [o_x o_y]. rewrite RP. unfold set_result, set_term, set_dims.
  cbn [o_coords o_rows o_x o_y o_dims o_intercept o_auto_bw o_auto_vars o_threshold o_maxiter o_betas o_se o_diag o_selected o_vlist o_term]. rewrite AV, AB. reflexivity.
Qed.
Lemma plain_throw : forall (o : object) t stop, o_auto_vars o = false -> o_auto_bw o = false -> matching o -> stop 0%nat = false ->
  fitting t (o_x o) (o_y o) (located (o_coords o) (o_dims o)) = Throw -> fst (fit t stop o) = Threw.
Proof.
  intros o t stop AV AB M Q F. rewrite fit_before, (plain_before t stop o AV AB (proj1 M) Q). cbn [andthen]. unfold fit_stage.
  unfold set_dims at 1 2 3. cbn [o_rows o_dims]. rewrite (plain_guard o M). unfold set_dims at 1 2 3. cbn [o_x o_y o_dims]. rewrite F. reflexivity.
Qed.
Lemma repeat_main : forall (o o' : object) t stop m, o_auto_vars o = false -> o_auto_bw o = false -> matching o -> quiet stop ->
  fit t stop o = (Matrix m, o') -> o_term o' = o_term o -> fit t stop o' = (Matrix m, o').
Proof.
  intros o o' t stop m AV AB M Q F T.
  destruct (fitting t (o_x o) (o_y o) (located (o_coords o) (o_dims o))) as [[[m1 se] st]| |] eqn:E.
  - destruct (report (o_x o) (o_y o) m1 se) as [dg se'] eqn:RP. rewrite (plain_main o t stop m1 se st dg se' AV AB M Q E RP) in F. injection F as <- <-.
    cbn [o_term] in T. rewrite (plain_main _ t stop m1 se st dg se'); cbn [o_auto_vars o_auto_bw o_coords o_rows o_x o_y o_dims o_intercept o_threshold o_maxiter o_selected o_vlist o_term];
      try reflexivity; try exact Q; try exact RP.
    + rewrite (located_twice _ _ (proj1 M)). rewrite T at 1. rewrite T. reflexivity.
    + destruct M as [M1 M2]. split; cbn [o_dims o_coords o_rows]; [rewrite (located_length _ _ M1); exact M1|exact M2].
    + rewrite (located_twice _ _ (proj1 M)). exact E.
  - pose proof (plain_throw o t stop AV AB M (Q 0%nat) E) as H. rewrite F in H. discriminate.
  - rewrite fit_before, (plain_before t stop o AV AB (proj1 M) (Q 0%nat)) in F. cbn [andthen] in F. unfold fit_stage in F.
    unfold set_dims at 1 2 3 in F. cbn [o_rows o_dims] in F. rewrite (plain_guard o M) in F. unfold set_dims at 1 2 3 in F. cbn [o_x o_y o_dims] in F. rewrite E in F. discriminate.
Qed.
Lemma late_main : forall (o : object) t stop m se st, o_auto_vars o = false -> o_auto_bw o = false -> matching o -> stop 0%nat = false -> stop 4%nat = true ->
  fitting t (o_x o) (o_y o) (located (o_coords o) (o_dims o)) = Ok (m, se, st) ->
  fst (fit t stop o) = Zeros (o_rows o) (length (o_x o)) /\ o_betas (snd (fit t stop o)) = m /\ o_diag (snd (fit t stop o)) = o_diag o.
Proof.
  intros o t stop m se st AV AB M Q Q4 F.
  assert (E : fit t stop o = (Zeros (o_rows o) (length (o_x o)), set_term true (set_term (o_term o || st) (set_result m se (o_diag o) (set_dims (located (o_coords o) (o_dims o)) o))))).
  { rewrite fit_before, (plain_before t stop o AV AB (proj1 M) Q). cbn [andthen]. unfold fit_stage.
    unfold set_dims at 1 2 3. cbn [o_rows o_dims]. rewrite (plain_guard o M). unfold set_dims at 1 2 3. cbn [o_x o_y o_dims]. rewrite F. unfold checkpoint. rewrite Q4. reflexivity. }
  rewrite E. split; [reflexivity|]. split; reflexivity.
Qed.
Lemma fewer_main : forall (o : object) t stop, (length (o_dims o) < length (o_coords o))%nat -> stop 0%nat = false -> fit t stop o = (Undefined, o).
Proof.
  intros o t stop L S0. rewrite fit_before. unfold GdObjProofs.before, checkpoint at 1. rewrite S0. cbn [andthen].
  assert (P : forall cs ds, (length ds < length cs)%nat -> place cs ds = None).
  { induction cs as [|c cs IH]; intros [|d ds] H; cbn in H; try lia; [reflexivity|]. cbn [place]. rewrite IH by lia. reflexivity. }
  unfold coords_stage. rewrite (P _ _ L). reflexivity.
Qed.

(** ** An exception leaves the coefficients and diagnostics. *)
Definition quiet_results (o o' : object) : Prop := o_betas o' = o_betas o /\ o_diag o' = o_diag o.
Lemma before_results t stop o : match before t stop o with Go o' | Leave _ o' => quiet_results o o' end.
Proof.
  assert (A : forall s k o0, match s with Go o' | Leave _ o' => quiet_results o0 o' end -> (forall o1, match k o1 with Go o' | Leave _ o' => quiet_results o1 o' end) ->
    match @andthen C Y Mat Se Diag s k with Go o' | Leave _ o' => quiet_results o0 o' end).
  { intros [o1|a o1] k o0 H K; cbn [andthen]; [|exact H]. specialize (K o1). destruct (k o1); unfold quiet_results in *; destruct H, K; split; congruence. }
  assert (Ch : forall b o0, match @checkpoint C Y Mat Se Diag b o0 with Go o' | Leave _ o' => quiet_results o0 o' end) by (intros [] o0; split; reflexivity).
  unfold GdObjProofs.before. apply A; [apply Ch|]. intros o1. apply A.
  { unfold coords_stage. destruct (place (o_coords o1) (o_dims o1)); split; reflexivity. }
  intros o2. apply A.
  - destruct (o_auto_vars o2); [|split; reflexivity]. apply A; [|intros; apply Ch]. unfold select_stage.
    destruct (negb (is_global o2) && negb (forallb (placed (o_rows o2)) (o_dims o2)) && Nat.ltb 0 (o_rows o2) && Nat.ltb 0 (length (candidates o2))); [split; reflexivity|].
    destruct (vs_optimize (var_criterion global_aicc local_aicc t o2) srt (candidates o2) (o_threshold o2)) as [[[|a sel] rep]| |]; try (split; reflexivity); [destruct rep; split; reflexivity|].
    cbv zeta. destruct (cols (o_x o2) (index2uvec (a :: sel) (o_intercept o2))); [|destruct rep; split; reflexivity..].
    destruct (named_list (candidates o2) match rep with Some l => l | None => [] end); destruct rep; split; reflexivity.
  - intros o3. destruct (o_auto_bw o3); [|split; reflexivity]. unfold bw_stage.
    destruct (starts (o_rows o3) (length (o_x o3)) (o_dims o3)) as [[[]| |] [|d ds]]; try (split; reflexivity). cbv zeta. set (g := mkGsl _ _ _ _ _).
    destruct (optimize g (o_rows o3) (o_maxiter o3) (map (fun d0 => (d_adaptive d0, d_bw d0)) (d :: ds))) as [r|]; [|split; reflexivity].
    apply A; [unfold checkpoint; destruct (stop 2%nat); split; reflexivity|]. intros o4. destruct (Z.eqb (o_code r) 0); [apply Ch|split; reflexivity].
Qed.
Lemma threw_main : forall (o : object) t stop, fst (fit t stop o) = Threw -> o_betas (snd (fit t stop o)) = o_betas o /\ o_diag (snd (fit t stop o)) = o_diag o.
Proof.
  intros o t stop. rewrite fit_before. pose proof (before_results t stop o) as B. destruct (before t stop o) as [o1|a o1]; cbn [andthen]; [|intros _; exact B].
  unfold fit_stage. destruct (negb (forallb (placed (o_rows o1)) (o_dims o1)) && Nat.ltb 0 (o_rows o1)); [intros _; exact B|].
  destruct (fitting t (o_x o1) (o_y o1) (o_dims o1)) as [[[m se] st]| |]; [|intros _; exact B|discriminate].
  unfold checkpoint. destruct (stop 4%nat); cbn [andthen]; [discriminate|]. destruct (report (o_x o1) (o_y o1) m se). discriminate.
Qed.

(** ** Selection of variables. *)
Lemma bw_keeps t stop (o o' : object) : bw_stage t stop o = Go o' ->
  o_x o' = o_x o /\ o_selected o' = o_selected o /\ o_intercept o' = o_intercept o /\ (o_term o = true -> o_term o' = true) /\ length (o_dims o') = length (o_dims o) /\
  o_rows o' = o_rows o /\ map d_dist (o_dims o') = map d_dist (o_dims o).
Proof.
  unfold bw_stage. assert (SD : forall ds n v, map d_dist (snd (starts n v ds)) = map d_dist ds).
  { induction ds as [|d ds IH]; intros n v; [reflexivity|]. cbn [starts]. destruct (ends n v d) as [[l u]| |]; try reflexivity.
    specialize (IH n v). destruct (starts n v ds) as [r t']. cbn [snd map] in *. rewrite IH. reflexivity. }
  assert (AD : forall bws ds, map d_dist (assign bws ds) = map d_dist ds).
  { induction bws as [|b bws IH]; intros [|d ds]; cbn [assign map]; try reflexivity. rewrite IH. reflexivity. }
  specialize (SD (o_dims o) (o_rows o) (length (o_x o))).
  destruct (starts (o_rows o) (length (o_x o)) (o_dims o)) as [[[]| |] ds]; try discriminate. cbn [snd] in SD.
  destruct ds as [|d ds]; try discriminate. cbv zeta. set (g := mkGsl _ _ _ _ _).
  destruct (optimize g (o_rows o) (o_maxiter o) (map (fun d0 => (d_adaptive d0, d_bw d0)) (d :: ds))) as [r|]; [|discriminate].
  unfold checkpoint. destruct (stop 2%nat); cbn [andthen]; [discriminate|]. destruct (Z.eqb (o_code r) 0); [|discriminate]. destruct (stop 3%nat); [discriminate|].
  intros E. injection E as <-. cbn [o_x o_selected o_intercept o_term set_term set_dims o_dims o_rows].
  assert (DD : map d_dist (assign (o_bws r) (d :: ds)) = map d_dist (o_dims o)) by (rewrite AD; exact SD).
  repeat split; try exact DD; [|rewrite <- (map_length d_dist), DD, map_length; reflexivity].
  intros T. rewrite T. reflexivity.
Qed.
Lemma select_before t stop (o o' : object) m : sorter srt -> o_auto_vars o = true -> fit t stop o = (Matrix m, o') ->
  exists o1 o2 o3, coords_stage o = Go o1 /\ select_stage t o1 = Go o2 /\ (if o_auto_bw o2 then bw_stage t stop o2 else Go o2) = Go o3 /\ fit_stage t stop o3 = Leave (Matrix m) o'.
Proof.
  intros So AV F. rewrite fit_before in F. unfold GdObjProofs.before, checkpoint at 1 in F. destruct (stop 0%nat); cbn [andthen] in F; [discriminate|].
  destruct (coords_stage o) as [o1|a o1] eqn:E1; cbn [andthen] in F.
  2:{ exfalso. pose proof (coords_early C Y Mat Se Diag o) as H. rewrite E1 in H. injection F as -> ->. exact H. }
  assert (AV1 : o_auto_vars o1 = true).
  { unfold coords_stage in E1. destruct (place (o_coords o) (o_dims o)); [|discriminate]. injection E1 as <-. exact AV. }
  rewrite AV1 in F. destruct (select_stage t o1) as [o2|a o2] eqn:E2; cbn [andthen] in F.
  2:{ exfalso. pose proof (select_early C Y Mat Se Diag Tel srt global_aicc local_aicc t o1) as H. rewrite E2 in H. injection F as -> ->. exact H. }
  unfold checkpoint at 1 in F. destruct (stop 1%nat); cbn [andthen] in F; [discriminate|].
  destruct (if o_auto_bw o2 then bw_stage t stop o2 else Go o2) as [o3|a o3] eqn:E3; cbn [andthen] in F.
  2:{ exfalso. destruct (o_auto_bw o2); [|discriminate]. pose proof (bw_early C Y Mat Se Diag Tel bw_crit simplex t stop o2) as H. rewrite E3 in H. injection F as -> ->. exact H. }
  exists o1, o2, o3. split; [reflexivity|]. split; [exact E2|]. split; [exact E3|].
  destruct (fit_stage_leaves C Y Mat Se Diag Tel fitting spoiled report t stop o3) as (a & o4 & E4). rewrite E4 in F. injection F as -> ->. exact E4.
Qed.
Lemma selection_facts t stop o o' m : sorter srt -> o_auto_vars o = true -> fit t stop o = (Matrix m, o') ->
  map Some (o_x o') = map (nth_error (o_x o)) ((if o_intercept o then [0%nat] else []) ++ o_selected o') /\
  NoDup (o_selected o') /\ o_selected o' <> [] /\ (forall i, In i (o_selected o') -> (if o_intercept o then 1 else 0) <= i < length (o_x o))%nat.
Proof.
  intros So AV F. destruct (select_before t stop o o' m So AV F) as (o1 & o2 & o3 & E1 & E2 & E3 & E4).
  assert (X1 : o_x o1 = o_x o /\ o_intercept o1 = o_intercept o).
  { unfold coords_stage in E1. destruct (place (o_coords o) (o_dims o)); [|discriminate]. injection E1 as <-. split; reflexivity. }
  destruct X1 as [X1 X2].
  destruct (select_inv C Y Mat Se Diag Tel srt global_aicc local_aicc t o1 o2 So E2) as (sel & rep & vl & x' & _ & N & D & I & X & Eo2).
  assert (H3 : o_x o3 = o_x o2 /\ o_selected o3 = o_selected o2).
  { destruct (o_auto_bw o2); [|injection E3 as <-; split; reflexivity]. destruct (bw_keeps _ _ _ _ E3) as (A & B & _). split; assumption. }
  destruct (fit_stage_inv C Y Mat Se Diag Tel fitting spoiled report t stop o3 _ o' E4) as (_ & _ & H4 & _ & _ & H5 & _).
  assert (Q : o_x o' = x' /\ o_selected o' = sel) by (rewrite H4, H5, (proj1 H3), (proj2 H3), Eo2; destruct rep; split; reflexivity).
  destruct Q as [-> ->]. rewrite <- X1, <- X2. split; [exact X|]. split; [exact D|]. split; [exact N|exact I].
Qed.
Lemma selection_main : forall (o o' : object) t stop m, sorter srt -> o_auto_vars o = true -> fit t stop o = (Matrix m, o') ->
  map Some (o_x o') = map (nth_error (o_x o)) ((if o_intercept o then [0%nat] else []) ++ o_selected o') /\
  NoDup (o_selected o') /\ o_selected o' <> [] /\ (forall i, In i (o_selected o') -> (if o_intercept o then 1 else 0) <= i < length (o_x o))%nat.
Proof. intros o o' t stop m. apply selection_facts. Qed.
Lemma single_main : forall (o o' : object) t stop m v t2 stop2, sorter srt -> o_auto_vars o = true -> matching o ->
  fit t stop o = (Matrix m, o') -> o_selected o' = [v] -> o_term o' = false ->
  (forall k x y ds, fst (local_aicc t2 k x y ds) = false) -> stop2 0%nat = false -> fst (fit t2 stop2 o') = Undefined.
Proof.
  intros o o' t stop m v t2 stop2 So AV M F S1 T L S2.
  destruct (selection_facts t stop o o' m So AV F) as (X & _).
  pose proof (fit_frames C Y Mat Se Diag Tel srt global_aicc local_aicc bw_crit simplex fitting spoiled report t stop o So) as Fr. rewrite F in Fr. cbn [snd] in Fr.
  destruct Fr as ((K1 & K2 & _ & K4 & K5 & _ & K7 & _) & _).
  assert (M' : matching o').
  { destruct M as [M1 M2]. split; [rewrite K1, <- M1, <- (map_length kind (o_dims o')), K4, map_length; reflexivity|]. rewrite K1, K2. exact M2. }
  rewrite fit_before. unfold GdObjProofs.before, checkpoint at 1. rewrite S2. cbn [andthen]. rewrite (coords_go _ (proj1 M')). cbn [andthen].
  set (o1 := set_dims _ o'). assert (A1 : o_auto_vars o1 = true) by (cbn; rewrite K7; exact AV). rewrite A1.
  assert (U : select_stage t2 o1 = Leave Undefined o1).
  { unfold select_stage. assert (G : forallb (placed (o_rows o1)) (o_dims o1) = true) by (apply located_placed, (proj2 M')).
    rewrite G, andb_false_r. cbn [andb]. 
    assert (Ca : exists w, candidates o1 = [w]).
    { assert (Lx : length (o_x o') = ((if o_intercept o then 1 else 0) + 1)%nat) by (rewrite <- (map_length Some), X, map_length, S1; destruct (o_intercept o); reflexivity).
      unfold candidates, o1, set_dims. cbn [o_intercept o_x]. rewrite K5, Lx. destruct (o_intercept o); eexists; reflexivity. }
    destruct Ca as [w Ca]. rewrite Ca. rewrite C33_single_main; [reflexivity|exact So| |].
    - intros k vs. unfold var_criterion. cbv zeta. assert (T1 : o_term o1 = false) by exact T. rewrite T1. destruct (is_global o1); [reflexivity|].
      pose proof (L k (picked (o_x o1) (index2uvec vs (o_intercept o1))) (o_y o1) (o_dims o1)) as Q.
      destruct (local_aicc t2 k (picked (o_x o1) (index2uvec vs (o_intercept o1))) (o_y o1) (o_dims o1)) as [st a]. cbn [fst] in Q. subst st. reflexivity.
    - intros k vs. unfold var_criterion. cbv zeta.
      destruct (if is_global o1 then _ else _) as [st [a|]]; cbn [snd]; [|discriminate].
      destruct (negb (o_term o1 || st) && xfinite a) eqn:Ef; [|discriminate]. apply andb_true_iff in Ef as [_ Ef]. intros ->. discriminate. }
  rewrite U. reflexivity.
Qed.

(** ** Bandwidths. *)
Lemma opt_final g n mi ms r : optimize g n mi ms = Some r -> Z.eqb (o_code r) 0 = true -> exists k, o_bws r = final n (g_x g k).
Proof.
  unfold optimize. destruct (Z.eqb (g_status g 0) 0) eqn:E.
  - destruct (opt_loop (S mi) g mi 0) as [[code k]|]; [|discriminate]. intros H _. injection H as <-. exists k. reflexivity.
  - intros H C0. injection H as <-. cbn [o_code] in C0. congruence.
Qed.
Lemma bw_whole t stop (o o' : object) : (forall s f k, length (g_x (simplex t s f) k) = length s) -> bw_stage t stop o = Go o' ->
  forall b, In b (map d_bw (o_dims o')) -> exists k : nat, b = INR k.
Proof.
  intros LX. unfold bw_stage. destruct (starts (o_rows o) (length (o_x o)) (o_dims o)) as [[[]| |] [|d ds]]; try discriminate. cbv zeta. set (g := mkGsl _ _ _ _ _).
  destruct (optimize g (o_rows o) (o_maxiter o) (map (fun d0 => (d_adaptive d0, d_bw d0)) (d :: ds))) as [r|] eqn:E; [|discriminate].
  unfold checkpoint. destruct (stop 2%nat); cbn [andthen]; [discriminate|]. destruct (Z.eqb (o_code r) 0) eqn:C0; [|discriminate]. destruct (stop 3%nat); [discriminate|].
  intros H b I. injection H as <-. cbn [o_dims set_term set_dims] in I.
  destruct (opt_final _ _ _ _ _ E C0) as [k Ek].
  assert (Lg : length (g_x g k) = length (d :: ds)) by (unfold g; cbn [g_x]; rewrite LX, !map_length; reflexivity).
  rewrite assign_bws in I by (rewrite Ek; unfold final; rewrite map_length; exact Lg). rewrite Ek in I.
  unfold final in I. apply in_map_iff in I as (x & <- & _). destruct (round_rounds (Rabs x * INR (o_rows o))) as [W _]; [|exact W].
  apply Rmult_le_pos; [apply Rabs_pos|apply pos_INR].
Qed.
Lemma whole_main : forall (o o' : object) t stop m, sorter srt -> (forall s f k, length (g_x (simplex t s f) k) = length s) -> o_auto_bw o = true ->
  fit t stop o = (Matrix m, o') -> forall b, In b (map d_bw (o_dims o')) -> exists k : nat, b = INR k.
Proof.
  intros o o' t stop m So LX AB F. rewrite fit_before in F.
  pose proof (before_early C Y Mat Se Diag Tel srt global_aicc local_aicc bw_crit simplex t stop o) as Ea.
  assert (G : match before t stop o with Go o3 => forall b, In b (map d_bw (o_dims o3)) -> exists k : nat, b = INR k | Leave _ _ => True end).
  { unfold GdObjProofs.before, checkpoint at 1. destruct (stop 0%nat); cbn [andthen]; [exact I|].
    pose proof (coords_framed C Y Mat Se Diag o) as F1. destruct (coords_stage o) as [o1|a o1]; cbn [andthen obj] in *; [|exact I].
    assert (F2 : framed C Y Mat Se Diag o (obj C Y Mat Se Diag (if o_auto_vars o1 then andthen (select_stage t o1) (checkpoint (stop 1%nat)) else Go o1))).
    { eapply framed_trans; [exact F1|]. destruct (o_auto_vars o1) eqn:AV; [|apply framed_refl]. apply andthen_framed; [apply select_framed; assumption|apply checkpoint_framed]. }
    destruct (if o_auto_vars o1 then andthen (select_stage t o1) (checkpoint (stop 1%nat)) else Go o1) as [o2|a o2]; cbn [andthen obj] in *; [|exact I].
    replace (o_auto_bw o2) with true by (symmetry; destruct F2 as ((_ & _ & _ & _ & _ & K & _) & _); rewrite K; exact AB).
    destruct (bw_stage t stop o2) as [o3|a o3] eqn:E; [|exact I]. apply (bw_whole t stop o2 o3 LX E). }
  destruct (before t stop o) as [o3|a o3]; cbn [andthen] in F.
  - destruct (fit_stage_leaves C Y Mat Se Diag Tel fitting spoiled report t stop o3) as (a & o4 & E4). rewrite E4 in F. injection F as -> ->.
    destruct (fit_stage_inv C Y Mat Se Diag Tel fitting spoiled report t stop o3 _ o' E4) as (_ & _ & _ & _ & H5 & _). rewrite H5. exact G.
  - exfalso. injection F as -> ->. exact Ea.
Qed.
Lemma failed_main : forall (o : object) t stop xs code, o_auto_vars o = false -> o_auto_bw o = true -> length (o_dims o) = length (o_coords o) -> o_dims o <> [] ->
  (forall d, In d (o_dims o) -> d_adaptive d = true) -> quiet stop -> length xs = length (o_dims o) -> code <> 0%Z -> code <> (-2)%Z ->
  (forall s f, let g := simplex t s f in g_status g 0 = 0%Z /\ g_status g 1 = 0%Z /\ g_test g 1 = code /\ g_x g 1 = xs) ->
  fst (fit t stop o) = Threw /\ Forall2 (fun x b => rounds_to (Rabs x * INR (o_rows o)) b) xs (map d_bw (o_dims (snd (fit t stop o)))).
Proof.
  intros o t stop xs code AV AB L N Ad Q Lx C0 C2 G. rewrite fit_before. unfold GdObjProofs.before, checkpoint at 1 3. rewrite (Q 0%nat). cbn [andthen]. rewrite (coords_go _ L). cbn [andthen].
  set (o1 := set_dims _ o). assert (A1 : o_auto_vars o1 = false) by exact AV. assert (B1 : o_auto_bw o1 = true) by exact AB. rewrite A1. cbn [andthen]. rewrite B1.
  unfold bw_stage. destruct (starts_adaptive (o_rows o1) (length (o_x o1)) (o_dims o1)) as (ds & E & Ld); [apply located_adaptive, Ad|]. rewrite E.
  assert (Ld' : length ds = length (o_dims o)) by (rewrite Ld; apply located_length, L).
  destruct ds as [|d ds]; [destruct (o_dims o); [congruence|discriminate]|]. cbv zeta.
  match goal with |- context [simplex t ?s ?f] => destruct (G s f) as (G0 & G1 & G2 & G3) end.
  set (g := mkGsl _ _ _ _ _).
  assert (O : opt_loop (S (o_maxiter o1)) g (o_maxiter o1) 0 = Some (code, 1%nat)).
  { assert (H1 : g_status g 1 = 0%Z) by exact G1. assert (H2 : g_test g 1 = code) by exact G2. cbn [opt_loop]. rewrite H1, H2. cbn [Z.eqb negb andb].
    destruct (Z.eqb_spec code (-2)); [congruence|]. reflexivity. }
  assert (Op : optimize g (o_rows o1) (o_maxiter o1) (map (fun d0 => (d_adaptive d0, d_bw d0)) (d :: ds)) =
    Some (mkOpt code (final (o_rows o1) (g_x g 1)) (map (evaluated (o_rows o1)) (calls g 1)))).
  { unfold optimize. unfold g at 1. cbn [g_status]. rewrite G0, O. reflexivity. }
  rewrite Op. cbn [o_bws o_code]. unfold checkpoint. rewrite (Q 2%nat). cbn [andthen]. destruct (Z.eqb_spec code 0); [congruence|]. cbn [fst snd]. split; [reflexivity|].
  cbn [andthen snd set_term set_dims o_dims]. assert (Gx : g_x g 1 = xs) by exact G3. rewrite Gx.
  rewrite assign_bws by (unfold final; rewrite map_length, Lx; symmetry; exact Ld'). apply final_rounds.
Qed.

(** A Terminated object optimises a constant function. *)
Lemma blind_main : forall (o : object) t stop x y, o_auto_vars o = false -> o_auto_bw o = true -> o_term o = true -> length x = length (o_x o) ->
  map d_bw (o_dims (snd (fit t stop (run [SetX x; SetY y] o)))) = map d_bw (o_dims (snd (fit t stop o))).
Proof.
  intros [oc or ox oy od oi oa ov ot om ob os og ol ow oe] t stop x y AV AB T L. cbn [o_auto_vars o_auto_bw o_term o_x] in AV, AB, T, L. subst.
  cbn [run step snd o_coords o_rows o_x o_y o_dims o_intercept o_auto_bw o_auto_vars o_threshold o_maxiter o_term o_betas o_se o_diag o_selected o_vlist].
  assert (Q : forall s1 s2 : stage C Y Mat Se Diag,
    match s1, s2 with Go a, Go b | Leave _ a, Leave _ b => map d_bw (o_dims a) = map d_bw (o_dims b) | _, _ => False end ->
    map d_bw (o_dims (snd (match andthen s1 (fit_stage t stop) with Leave a o' => (a, o') | Go o' => (Undefined, o') end))) =
    map d_bw (o_dims (snd (match andthen s2 (fit_stage t stop) with Leave a o' => (a, o') | Go o' => (Undefined, o') end)))).
  { intros [a|a1 a] [b|b1 b] H; try contradiction; cbn [andthen]; [|exact H].
    destruct (fit_stage_leaves C Y Mat Se Diag Tel fitting spoiled report t stop a) as (ra & a' & Ea). destruct (fit_stage_leaves C Y Mat Se Diag Tel fitting spoiled report t stop b) as (rb & b' & Eb).
    rewrite Ea, Eb. cbn [snd].
    destruct (fit_stage_inv C Y Mat Se Diag Tel fitting spoiled report t stop a _ a' Ea) as (_ & _ & _ & _ & Ha & _).
    destruct (fit_stage_inv C Y Mat Se Diag Tel fitting spoiled report t stop b _ b' Eb) as (_ & _ & _ & _ & Hb & _). rewrite Ha, Hb. exact H. }
  rewrite !fit_before. apply Q. clear Q. unfold GdObjProofs.before, checkpoint. destruct (stop 0%nat); cbn [andthen]; [exact eq_refl|].
  unfold coords_stage. cbn [o_coords o_dims]. destruct (place oc od) as [ds|]; cbn [andthen]; [|exact eq_refl].
  unfold set_dims. cbn [o_auto_vars andthen o_coords o_rows o_x o_y o_dims o_intercept o_auto_bw o_threshold o_maxiter o_term o_betas o_se o_diag o_selected o_vlist].
  unfold bw_stage. cbn [o_coords o_rows o_x o_y o_dims o_intercept o_auto_bw o_auto_vars o_threshold o_maxiter o_term set_dims]. rewrite L.
  destruct (starts or (length ox) ds) as [[[]| |] [|d ds']]; try exact eq_refl. cbv zeta.
  unfold bw_criterion. cbn [o_term]. set (g := mkGsl _ _ _ _ _). clearbody g.
  destruct (optimize g or om (map (fun d0 => (d_adaptive d0, d_bw d0)) (d :: ds'))) as [r|]; [|exact eq_refl].
  unfold checkpoint. destruct (stop 2%nat); cbn [andthen]; [exact eq_refl|]. destruct (Z.eqb (o_code r) 0); [|exact eq_refl]. destruct (stop 3%nat); exact eq_refl.
Qed.

(** Old coordinates. *)
Lemma stale_main : forall (o : object) t stop c1 c2 c d1 d2 m se st m' se' st', o_auto_vars o = false -> o_auto_bw o = false -> quiet stop ->
  o_dims o = [d1; d2] -> o_coords o = [c1; c2] -> length c1 = o_rows o -> length c2 = o_rows o -> length c = o_rows o -> (0 < o_rows o)%nat ->
  fitting t (o_x o) (o_y o) (located [c1; c2] [d1; d2]) = Ok (m, se, st) ->
  fitting t (o_x o) (o_y o) (located [c; c2] [d1; d2]) = Ok (m', se', st') ->
  fst (step (Fit t stop) (run [Fit t stop; SetCoords (o_rows o) [c]] o)) = Matrix m' /\
  fst (step (Fit t stop) (run [Fit t stop; SetCoords (o_rows o) [c]; SetWeights [d1; d2]] o)) = Threw.
Proof.
  intros o t stop c1 c2 c d1 d2 m se st m' se' st' AV AB Q D Co L1 L2 L3 P F1 F2.
  destruct (report (o_x o) (o_y o) m se) as [dg se1] eqn:R1. destruct (report (o_x o) (o_y o) m' se') as [dg' se1'] eqn:R2.
  assert (M : matching o) by (split; [rewrite D, Co; reflexivity|rewrite Co; intros z [<-|[<-|[]]]; assumption]).
  cbn [run]. change (step (Fit t stop) o) with (fit t stop o).
  rewrite (plain_main o t stop m se st dg se1 AV AB M Q) by (rewrite ?Co, ?D; assumption). cbn [snd]. rewrite Co, D.
  unfold step. cbn [snd o_coords o_rows o_x o_y o_dims o_intercept o_auto_bw o_auto_vars o_threshold o_maxiter o_term o_betas o_se o_diag o_selected o_vlist].
  unfold located. cbn [combine map fst snd d_adaptive d_kernel d_bw]. rewrite !fit_before. unfold GdObjProofs.before, checkpoint. rewrite (Q 0%nat). cbn [andthen]. unfold coords_stage. cbn [o_coords o_dims place option_map andthen].
  unfold set_dims. cbn [o_auto_vars o_auto_bw andthen]. unfold set_dims. cbn [o_auto_bw andthen]. unfold fit_stage.
  unfold set_dims. cbn [o_rows o_dims o_x o_y d_adaptive d_kernel d_bw forallb placed d_dist onedim_copy]. unfold placed. cbn [d_dist]. rewrite L2, L3, Nat.eqb_refl. cbn [andb negb].
  apply Nat.ltb_lt in P. rewrite P. cbn [andb].
  unfold located in F2. cbn [combine map fst snd] in F2. rewrite F2. unfold checkpoint. rewrite (Q 4%nat). cbn [andthen o_x o_y]. rewrite R2. split; reflexivity.
Qed.
End P.
