(** Proofs for C160. *)
From Coq Require Import Reals Bool List ZArith Lra Lia.
From Verif Require Import Outcome XReal XRealFacts KernelModel KernelProofs GwssSpec ScaNnModel ScaNnSpec ScaOptModel ScaNnProofs ScaOptProofs ScaNb ScaObjModel ScaObjSpec.
Import ListNotations.
Local Open Scope R_scope.

Lemma last_firstn (l : list R) : forall k, (0 < k <= length l)%nat -> nth_error l (k - 1) = Some (last (firstn k l) 0).
Proof.
  induction l as [|a l IH]; intros k K; [simpl in K; lia|]. destruct k as [|k]; [lia|]. destruct k as [|k]; [reflexivity|].
  simpl in K. specialize (IH (S k) ltac:(lia)). replace (S (S k) - 1)%nat with (S (S k - 1)) by lia. cbn [nth_error]. rewrite IH.
  f_equal. cbn [firstn]. destruct l as [|b l]; [simpl in K; lia|]. reflexivity.
Qed.

Lemma for_rows_get {A} (f : nat -> outcome A) m l : for_rows f (seq 0 m) = Ok l -> length l = m /\ forall i, (i < m)%nat -> exists a, f i = Ok a /\ nth_error l i = Some a.
Proof.
  assert (G : forall k s l, for_rows f (seq s k) = Ok l -> length l = k /\ forall i, (i < k)%nat -> exists a, f (s + i)%nat = Ok a /\ nth_error l i = Some a).
  { induction k as [|k IH]; intros s l0 E; simpl in E; [injection E as <-; split; [reflexivity|lia]|].
    destruct (f s) as [a| |] eqn:Ea; try discriminate. cbn [obind] in E. destruct (for_rows f (seq (S s) k)) as [r| |] eqn:Er; try discriminate.
    injection E as <-. destruct (IH _ _ Er) as [L H]. split; [simpl; congruence|]. intros i Hi. destruct i as [|i].
    - exists a. rewrite Nat.add_0_r. auto.
    - destruct (H i ltac:(lia)) as (b & Eb & Nb). exists b. rewrite <- Nat.add_succ_comm. auto. }
  intros E. apply (G m 0%nat l E).
Qed.

Lemma bw_after_lt bw n : (1 <= n)%nat -> 0 <= bw -> (Int_part (bandwidth_after bw n) < Z.of_nat n)%Z.
Proof.
  intros N B. unfold bandwidth_after. destruct (Z.leb_spec (Z.of_nat n) (Int_part bw)); [|lia].
  rewrite (Int_part_unique (INR n - 1) (Z.of_nat n - 1)); [lia|]. rewrite minus_IZR, <- INR_IZR_INZ. simpl (IZR 1). lra.
Qed.
Lemma bw_after_id bw n : (Int_part bw < Z.of_nat n)%Z -> bandwidth_after bw n = bw.
Proof. intros H. unfold bandwidth_after. rewrite (proj2 (Z.leb_gt _ _) H). reflexivity. Qed.
Lemma bw_after_part bw n : (1 <= n)%nat -> 0 <= bw -> Int_part (bandwidth_after bw n) = Z.of_nat (count bw n).
Proof.
  intros N B. destruct (to_uword_nonneg 0 ltac:(lra)) as [_ _]; [apply IZR_lt; reflexivity|]. 
  assert (0 <= Int_part bw)%Z. { pose proof (Int_part_spec bw). assert (IZR (-1) < IZR (Int_part bw)) by (simpl; lra). apply lt_IZR in H0. lia. }
  unfold bandwidth_after, count. destruct (Z.leb_spec (Z.of_nat n) (Int_part bw)); [|lia].
  rewrite (Int_part_unique (INR n - 1) (Z.of_nat n - 1)); [lia|]. rewrite minus_IZR, <- INR_IZR_INZ. simpl (IZR 1). lra.
Qed.
Lemma bw_after_bounds bw n : (1 <= n)%nat -> 0 <= bw -> 0 <= bandwidth_after bw n <= bw.
Proof.
  intros N B. unfold bandwidth_after. destruct (Z.leb_spec (Z.of_nat n) (Int_part bw)); [|lra].
  apply le_INR in N. simpl (INR 1) in N. pose proof (Int_part_spec bw). apply IZR_le in H. rewrite <- INR_IZR_INZ in H. lra.
Qed.

Lemma supported_spec k : supported k = true <-> two_kernels k.
Proof. unfold two_kernels. destruct k; cbn; split; intros H; try reflexivity; try discriminate; auto; destruct H; discriminate. Qed.
Lemma supported_not k : supported k = false <-> ~ two_kernels k.
Proof. rewrite <- supported_spec. destruct (supported k); split; congruence. Qed.

Section P.
Variable sort_index : list R -> list nat.
Hypothesis SI : sorts_indices sort_index.
Variables (Data Loc Mat Se Diag Tel : Type).
Variables (d_n d_k : Data -> nat) (d_dist : Data -> nat -> list R).
Variables (l_n : Loc -> nat) (l_dist : Data -> Loc -> nat -> list R).
Notation neighbours := (list (list nat * list R)).
Variable optimum : Data -> kernel -> bool -> neighbours -> list R -> Tel -> outcome (option (R * R * R)).
Variable fitting : Data -> kernel -> R -> R -> neighbours -> list R -> Tel -> outcome (Mat * Se).
Variable predicting : Data -> Loc -> kernel -> R -> R -> neighbours -> list R -> Tel -> outcome Mat.
Variable report : Data -> Mat -> Se -> Diag * Se.
Notation object := (object Data Mat Se Diag).
Notation fit := (fit sort_index d_n d_k d_dist optimum fitting report).
Notation predict := (predict sort_index d_n d_dist l_n l_dist optimum predicting).
Notation step := (step sort_index d_n d_k d_dist l_n l_dist optimum fitting predicting report).
Notation run := (run sort_index d_n d_k d_dist l_n l_dist optimum fitting predicting report).
Notation sound := (sound d_n d_dist).

Lemma first_stage_rows cv bw dist n rows nb col : first_stage sort_index cv bw dist n = Ok (rows, nb, col) -> find_dp sort_index cv bw dist n = Ok rows.
Proof.
  unfold first_stage. destruct (find_dp sort_index cv bw dist n) as [r| |]; try discriminate. cbn [obind].
  destruct (to_uword bw); try discriminate. cbn [obind]. cbv zeta. destruct (for_rows _ _); try discriminate. cbn [obind]. intros E. congruence.
Qed.

Lemma search_ok cv bw dist n : (2 <= n)%nat -> (Z.of_nat n < 2 ^ 61)%Z -> (forall i, (i < n)%nat -> length (dist i) = n) -> accepted cv bw n ->
  exists rows nb col, first_stage sort_index cv bw dist n = Ok (rows, nb, col) /\ find_dp sort_index cv bw dist n = Ok rows /\ search_lists cv dist n bw rows col.
Proof.
  intros N N' D [[B0 B1] A].
  assert (X : exists r, first_stage sort_index cv bw dist n = Ok r).
  { destruct cv; [apply first_stage_cv|apply first_stage_aic]; auto; lia. }
  destruct X as [[[rows nb] col] E]. exists rows, nb, col. split; [exact E|]. pose proof (first_stage_rows _ _ _ _ _ _ _ E) as F. split; [exact F|].
  assert (LR : length rows = n).
  { destruct cv; [rewrite (find_dp_cv _ SI) in F by (auto; lia)|rewrite (find_dp_aic _ SI) in F by (auto; lia)];
    destruct (Nat.leb _ _); try discriminate; injection F as <-; rewrite map_length, seq_length; reflexivity. }
  unfold first_stage in E. rewrite F in E. cbn [obind] in E. destruct (to_uword_nonneg bw B0 B1) as [T P]. rewrite T in E. cbn [obind] in E. cbv zeta in E.
  destruct (for_rows _ (seq 0 n)) as [c| |] eqn:Ec in E; try discriminate. cbn [obind] in E. injection E as <- <-.
  destruct (for_rows_get _ _ _ Ec) as [Lc H].
  split; [exact LR|]. split; [exact Lc|]. intros i Hi. destruct (H i Hi) as (a & Ea & Na).
  destruct (nth_error rows i) as [[idx ds]|] eqn:Ei; [|discriminate]. exists idx, ds. split; [reflexivity|].
  assert (Cn : w64 (Z.min 50 (if Z.leb (Z.of_nat n) (Int_part bw) then w64 (Z.of_nat n - 1) else Int_part bw) - 1) = Z.of_nat (Nat.min 50 (count bw n) - 1)).
  { assert (1 <= Int_part bw)%Z by (destruct cv; lia). unfold count. destruct (Z.leb_spec (Z.of_nat n) (Int_part bw)).
    - rewrite (w64_small (Z.of_nat n - 1)) by lia. rewrite w64_small by lia. lia.
    - rewrite w64_small by lia. lia. }
  rewrite Cn in Ea. cbn [snd] in Ea. unfold span0 in Ea. destruct (Z.ltb_spec (Z.of_nat (Nat.min 50 (count bw n) - 1)) (Z.of_nat (length ds))); [|discriminate].
  assert (Ha : a = last (firstn (Z.to_nat (Z.of_nat (Nat.min 50 (count bw n) - 1) + 1)) ds) 0) by congruence. clear Ea. subst a. split.
  - rewrite Na. symmetry. replace (Z.to_nat (Z.of_nat (Nat.min 50 (count bw n) - 1) + 1)) with (S (Nat.min 50 (count bw n) - 1)) by lia.
    rewrite <- last_firstn by lia. f_equal. lia.
  - cbv zeta. pose proof (dp_main _ SI dist n bw N' B1 D B0 cv rows i F Hi) as M. cbv zeta in M. destruct cv.
    + destruct M as (idx' & ds' & Ei' & M). rewrite Ei in Ei'. injection Ei' as <- <-. exact M.
    + destruct M as (idx' & ds' & Ei' & M). rewrite Ei in Ei'. injection Ei' as -> ->. eauto.
Qed.

Lemma neighbours_ok bw dist n m : (2 <= n)%nat -> (Z.of_nat n < 2 ^ 61)%Z -> (forall i, (i < m)%nat -> length (dist i) = n) -> 0 <= bw < IZR (2 ^ 64) ->
  (1 <= Int_part bw < Z.of_nat n)%Z ->
  exists rows col, find_nb sort_index bw dist n m = Ok rows /\ reference rows (Int_part bw) = Ok col /\ neighbour_lists dist m (Z.to_nat (Int_part bw)) rows col.
Proof.
  intros N N' D [B0 B1] I.
  assert (B : 1 <= bw). { pose proof (Int_part_spec bw). destruct I as [I _]. apply IZR_le in I. lra. }
  destruct (nb_main _ SI dist n bw N' B1 m D B ltac:(lia)) as (rows & E & L & H).
  rewrite Nat.min_l in H by lia. set (k := Z.to_nat (Int_part bw)) in *.
  assert (W : w64 (Z.min 50 (Int_part bw) - 1) = Z.of_nat (Nat.min 50 k - 1)) by (rewrite w64_small by lia; unfold k; lia).
  assert (R : exists col, reference rows (Int_part bw) = Ok col).
  { unfold reference. rewrite L.
    eexists. apply for_rows_ok with (g := fun i => match nth_error rows i with Some r => last (firstn (Nat.min 50 k) (snd r)) 0 | None => 0 end).
    intros i Hi. apply in_seq in Hi. destruct (H i ltac:(lia)) as (idx & ds & Ei & Ln & _ & _ & Ds & _). rewrite Ei. cbn [snd].
    rewrite W. unfold span0. assert (length ds = k) by (rewrite Ds, map_length; exact Ln). rewrite H0.
    rewrite (proj2 (Z.ltb_lt _ _)) by lia. do 3 f_equal. lia. }
  destruct R as [col Ec]. exists rows, col. split; [exact E|]. split; [exact Ec|].
  unfold reference in Ec. rewrite L in Ec. destruct (for_rows_get _ _ _ Ec) as [Lc G]. split; [exact L|]. split; [exact Lc|].
  intros i Hi. destruct (H i Hi) as (idx & ds & Ei & M). exists idx, ds. split; [exact Ei|]. split; [exact M|].
  destruct (G i Hi) as (a & Ea & Na). rewrite Ei in Ea. cbn [snd] in Ea. rewrite W in Ea. unfold span0 in Ea.
  assert (length ds = k). { destruct M as (Ln & _ & _ & Ds & _). rewrite Ds, map_length. exact Ln. }
  rewrite H0 in Ea. rewrite (proj2 (Z.ltb_lt _ _)) in Ea by lia.
  assert (Ha : a = last (firstn (Z.to_nat (Z.of_nat (Nat.min 50 k - 1) + 1)) ds) 0) by congruence. clear Ea. subst a. rewrite Na. symmetry.
  replace (Z.to_nat (Z.of_nat (Nat.min 50 k - 1) + 1)) with (S (Nat.min 50 k - 1)) by lia. rewrite <- last_firstn by lia. f_equal. lia.
Qed.

Lemma accepted_count cv bw n : (2 <= n)%nat -> accepted cv bw n -> (1 <= count bw n)%nat.
Proof. intros N [B A]. unfold count. destruct cv; lia. Qed.

(** What a fit computes. *)
Lemma fit_main (o : object) t : sound (o_data o) -> two_kernels (o_kernel o) -> accepted (o_cv o) (o_bw o) (d_n (o_data o)) ->
  let d := o_data o in let n := d_n d in
  exists rows col rows' col', search_lists (o_cv o) (d_dist d) n (o_bw o) rows col /\
    neighbour_lists (d_dist d) n (count (o_bw o) n) rows' col' /\
    forall c b a m se dg se', optimum d (o_kernel o) (o_cv o) rows col t = Ok (Some (c, b, a)) ->
      fitting d (o_kernel o) (b * b) (a * a) rows' col' t = Ok (m, se) -> report d m se = (dg, se') ->
      fit false false false t o =
      (Matrix m, Object d (bandwidth_after (o_bw o) n) (o_kernel o) (o_cv o) (Some c) (b * b) (a * a) m se' dg (o_term o)).
Proof.
  intros (N & N' & D) K A. apply supported_spec in K. cbv zeta. set (d := o_data o) in *. set (n := d_n d) in *.
  destruct (search_ok _ _ _ _ N N' D A) as (rows & nb & col & E1 & E2 & S1).
  assert (B0 : 0 <= o_bw o) by apply A. assert (B1 : o_bw o < IZR (2 ^ 64)) by apply A.
  pose proof (bw_after_part (o_bw o) n ltac:(lia) B0) as IP. pose proof (bw_after_bounds (o_bw o) n ltac:(lia) B0) as BB.
  pose proof (accepted_count _ _ _ N A) as C1.
  assert (C2 : (count (o_bw o) n < n)%nat) by (unfold count; lia).
  destruct (neighbours_ok (bandwidth_after (o_bw o) n) (d_dist d) n n N N' D ltac:(lra) ltac:(lia)) as (rows' & col' & F1 & F2 & S2).
  rewrite IP, Nat2Z.id in S2. exists rows, col, rows', col'. split; [exact S1|]. split; [exact S2|].
  intros c b a m se dg se' HO HF HR. unfold ScaObjModel.fit, common. fold d. fold n. rewrite E2, E1, K. rewrite HO. cbn -[Z.leb Z.of_nat Int_part Rmult].
  fold n. rewrite IP. rewrite (proj2 (Z.leb_gt _ _)) by lia. rewrite F1. cbn [obind]. rewrite ?IP; rewrite IP in F2; rewrite F2. cbn [obind]. rewrite HF. rewrite HR. reflexivity.
Qed.

(** What a prediction computes. *)
Lemma predict_main (o : object) l t : sound (o_data o) -> (forall i, (i < l_n l)%nat -> length (l_dist (o_data o) l i) = d_n (o_data o)) ->
  two_kernels (o_kernel o) -> accepted (o_cv o) (o_bw o) (d_n (o_data o)) ->
  let d := o_data o in let n := d_n d in
  exists rows col rows' col', search_lists (o_cv o) (d_dist d) n (o_bw o) rows col /\
    neighbour_lists (l_dist d l) (l_n l) (count (o_bw o) n) rows' col' /\
    forall c b a m, optimum d (o_kernel o) (o_cv o) rows col t = Ok (Some (c, b, a)) ->
      predicting d l (o_kernel o) (b * b) (a * a) rows' col' t = Ok m ->
      predict l false false false t o =
      (Matrix m, Object d (bandwidth_after (o_bw o) n) (o_kernel o) (o_cv o) (Some c) (b * b) (a * a) m (o_se o) (o_diag o) (o_term o)).
Proof.
  intros (N & N' & D) DL K A. apply supported_spec in K. cbv zeta. set (d := o_data o) in *. set (n := d_n d) in *.
  destruct (search_ok _ _ _ _ N N' D A) as (rows & nb & col & E1 & E2 & S1).
  assert (B0 : 0 <= o_bw o) by apply A. assert (B1 : o_bw o < IZR (2 ^ 64)) by apply A.
  pose proof (bw_after_part (o_bw o) n ltac:(lia) B0) as IP. pose proof (bw_after_bounds (o_bw o) n ltac:(lia) B0) as BB.
  pose proof (accepted_count _ _ _ N A) as C1.
  assert (C2 : (count (o_bw o) n < n)%nat) by (unfold count; lia).
  destruct (neighbours_ok (bandwidth_after (o_bw o) n) (l_dist d l) n (l_n l) N N' DL ltac:(lra) ltac:(lia)) as (rows' & col' & F1 & F2 & S2).
  rewrite IP, Nat2Z.id in S2. exists rows, col, rows', col'. split; [exact S1|]. split; [exact S2|].
  intros c b a m HO HF. unfold ScaObjModel.predict, common. fold d. fold n. rewrite E2, E1, K. rewrite HO. cbn -[Z.leb Z.of_nat Int_part Rmult].
  fold n. rewrite F1. cbn [obind]. rewrite F2. cbn [obind]. rewrite HF. reflexivity.
Qed.

(** Two objects with the same settings. *)
Lemma again_step (o o' : object) c : same_settings o o' -> is_computation c ->
  same_settings (snd (step c o)) (snd (step c o')) /\
  (fst (step c o) = fst (step c o') \/
   (fst (step c o) = Matrix (o_betas o) /\ fst (step c o') = Matrix (o_betas o') /\
    (supported (o_kernel o) = false \/ exists rows col t, optimum (o_data o) (o_kernel o) (o_cv o) rows col t = Ok None))).
Proof.
  destruct o as [d b k cv cr sc pe be se dg te], o' as [d' b' k' cv' cr' sc' pe' be' se' dg' te'].
  unfold same_settings. cbn [o_data o_bw o_kernel o_cv o_betas]. intros (<- & <- & <- & <-) H.
  assert (CM : forall z s1 s2 t,
    let o := Object d b k cv cr sc pe be se dg te in let o' := Object d b k cv cr' sc' pe' be' se' dg' te' in
    match common sort_index d_n d_dist optimum z s1 s2 t o, common sort_index d_n d_dist optimum z s1 s2 t o' with
    | Go p x y, Go p' x' y' => x = x' /\ y = y' /\ same_settings p p' /\ o_data p = d /\ o_kernel p = k /\ o_cv p = cv
    | Leave a p, Leave a' p' => same_settings p p' /\ (a = a' \/ a = Matrix be /\ a' = Matrix be' /\
        (supported k = false \/ exists rows col t, optimum d k cv rows col t = Ok None))
    | _, _ => False
    end).
  { intros z s1 s2 t. cbv zeta. unfold common. cbn [o_data o_bw o_kernel o_cv o_betas].
    destruct (find_dp sort_index cv b (d_dist d) (d_n d)) as [rows| |]; try (split; [repeat split|left; reflexivity]).
    destruct (supported k) eqn:Sk; [|split; [repeat split|right; repeat split; left; reflexivity]].
    destruct (first_stage _ _ _ _ _) as [[[? ?] col]| |]; try (split; [repeat split|left; reflexivity]).
    destruct s1; [split; [repeat split|left; reflexivity]|].
    destruct (optimum d k cv rows col t) as [r| |] eqn:Eo; try (split; [repeat split|left; reflexivity]).
    destruct s2; [split; [repeat split|left; reflexivity]|].
    destruct r as [[[c1 b1] a1]|]; [repeat split|]. split; [repeat split|]. right. split; [reflexivity|]. split; [reflexivity|]. right. eauto. }
  destruct c as [s1 s2 s3 t|l s1 s2 s3 t| | |]; try contradiction; cbn [ScaObjModel.step].
  - unfold ScaObjModel.fit. cbn [o_data o_kernel]. specialize (CM (d_n d, d_k d) s1 s2 t). cbv zeta in CM.
    destruct (common _ _ _ _ _ _ _ _ (Object d b k cv cr sc pe be se dg te)) as [p x y|a p], (common _ _ _ _ _ _ _ _ (Object d b k cv cr' sc' pe' be' se' dg' te')) as [p' x' y'|a' p']; try contradiction.
    + destruct CM as (<- & <- & (E1 & E2 & E3 & E4) & _). cbn [o_bw set_par]. rewrite <- E2.
      match goal with |- context [match ?u with Ok _ => _ | Throw => _ | UB => _ end] => destruct u as [[m s]| |] end;
        try (split; [repeat split; assumption|left; reflexivity]).
      destruct s3; [split; [repeat split; assumption|left; reflexivity]|]. destruct (report d m s). split; [repeat split; assumption|left; reflexivity].
    + exact CM.
  - unfold ScaObjModel.predict. cbn [o_data o_kernel]. specialize (CM (l_n l, d_n d) s1 s2 t). cbv zeta in CM.
    destruct (common _ _ _ _ _ _ _ _ (Object d b k cv cr sc pe be se dg te)) as [p x y|a p], (common _ _ _ _ _ _ _ _ (Object d b k cv cr' sc' pe' be' se' dg' te')) as [p' x' y'|a' p']; try contradiction.
    + destruct CM as (<- & <- & (E1 & E2 & E3 & E4) & _). cbn [o_bw set_par]. rewrite <- E2.
      match goal with |- context [match ?u with Ok _ => _ | Throw => _ | UB => _ end] => destruct u as [m| |] end;
        try (split; [repeat split; assumption|left; reflexivity]).
      destruct s3; split; try (repeat split; assumption); left; reflexivity.
    + exact CM.
Qed.

(** What a computation does to the settings. *)
Lemma comp_settings (o : object) c : is_computation c -> sound (o_data o) -> 0 <= o_bw o < IZR (2 ^ 64) ->
  let o' := snd (step c o) in o_data o' = o_data o /\ o_kernel o' = o_kernel o /\ o_cv o' = o_cv o /\
  o_bw o' = bandwidth_after (o_bw o) (d_n (o_data o)).
Proof.
  intros H (N & N' & D) (B0 & B1). cbv zeta.
  set (d := o_data o) in *. set (n := d_n d) in *. set (b' := bandwidth_after (o_bw o) n).
  assert (LT : (Int_part b' < Z.of_nat n)%Z) by (apply bw_after_lt; [lia|exact B0]).
  assert (CM : forall z s1 s2 t, match common sort_index d_n d_dist optimum z s1 s2 t o with
     | Go p _ _ | Leave _ p => o_data p = d /\ o_kernel p = o_kernel o /\ o_cv p = o_cv o /\ o_bw p = b' end).
  { intros z s1 s2 t. unfold common. fold d. fold n.
    destruct (find_dp sort_index (o_cv o) (o_bw o) (d_dist d) n) as [rows| |] eqn:E.
    - destruct (supported (o_kernel o)); [|repeat split].
      destruct (first_stage _ _ _ _ _) as [[[? ?] col]| |]; try (repeat split).
      destruct s1; [repeat split|].
      destruct (optimum _ _ _ _ _ _) as [r| |]; try (repeat split).
      destruct s2; [repeat split|]. destruct r as [[[c1 b1] a1]|]; repeat split.
    - repeat split. unfold b'. symmetry. apply bw_after_id.
      destruct (Z.lt_ge_cases (Int_part (o_bw o)) (Z.of_nat n)) as [L|L]; [exact L|]. exfalso.
      assert (A : asked (o_bw o) n = n) by (unfold asked; lia).
      destruct (o_cv o); [rewrite (find_dp_cv _ SI) in E by (auto; lia)|rewrite (find_dp_aic _ SI) in E by (auto; lia)]; rewrite A in E;
      rewrite (proj2 (Nat.leb_le _ _)) in E by lia; discriminate.
    - exfalso. revert E. apply find_dp_not_ub; auto. lia. }
  destruct c as [s1 s2 s3 t|l s1 s2 s3 t| | |]; try contradiction; cbn [ScaObjModel.step].
  - unfold ScaObjModel.fit. fold d. fold n. specialize (CM (n, d_k d) s1 s2 t). destruct (common _ _ _ _ _ _ _ _ o) as [p x y|a p]; [|exact CM].
    destruct CM as (E1 & E2 & E3 & E4). cbn [o_bw set_par]. rewrite E4. rewrite (proj2 (Z.leb_gt _ _) LT).
    match goal with |- context [match ?u with Ok _ => _ | Throw => _ | UB => _ end] => destruct u as [[m s]| |] end; try (repeat split; assumption).
    destruct s3; [repeat split; assumption|]. destruct (report d m s). repeat split; assumption.
  - unfold ScaObjModel.predict. fold d. fold n. specialize (CM (l_n l, n) s1 s2 t). destruct (common _ _ _ _ _ _ _ _ o) as [p x y|a p]; [|exact CM].
    destruct CM as (E1 & E2 & E3 & E4).
    match goal with |- context [match ?u with Ok _ => _ | Throw => _ | UB => _ end] => destruct u as [m| |] end; try (repeat split; assumption).
    destruct s3; repeat split; assumption.
Qed.

Lemma Int_part_mono x y : x <= y -> (Int_part x <= Int_part y)%Z.
Proof.
  intros H. pose proof (Int_part_spec x). pose proof (Int_part_spec y). destruct (Z.le_gt_cases (Int_part x) (Int_part y)) as [|G]; [assumption|exfalso].
  assert (L : (Int_part y + 1 <= Int_part x)%Z) by lia. apply IZR_le in L. rewrite plus_IZR in L. simpl (IZR 1) in L. lra.
Qed.

(** The bandwidth after any calls that do not set it. *)
Lemma bandwidth_main cs : forall (o : object), (forall c, In c cs -> ~ sets_weight c) -> (forall d, In d (used (o_data o) cs) -> sound d) ->
  0 <= o_bw o < IZR (2 ^ 64) ->
  let b := o_bw o in let b' := o_bw (run cs o) in
  0 <= b' <= b /\ (b' = b \/ exists d, In d (used (o_data o) cs) /\ (Z.of_nat (d_n d) <= Int_part b)%Z /\ b' = INR (d_n d) - 1) /\
  forall d, In d (used (o_data o) cs) -> (Int_part b' < Z.of_nat (d_n d))%Z.
Proof.
  induction cs as [|c cs IH]; intros o NW SD B.
  { cbv zeta. cbn. split; [lra|]. split; [auto|contradiction]. }
  assert (NW' : forall c, In c cs -> ~ sets_weight c) by (intros; apply NW; right; assumption).
  assert (SET : ~ is_computation c -> o_bw (snd (step c o)) = o_bw o /\ used (o_data o) (c :: cs) = used (o_data (snd (step c o))) cs).
  { intros NC. specialize (NW c (or_introl eq_refl)). destruct c; cbn in *; try tauto; auto. }
  cbv zeta. cbn [ScaObjModel.run].
  assert (DEC : is_computation c \/ ~ is_computation c) by (destruct c; cbn; tauto). destruct DEC as [C|C].
  - assert (U : used (o_data o) (c :: cs) = o_data o :: used (o_data o) cs) by (destruct c; try contradiction; reflexivity).
    rewrite U in *. assert (S0 : sound (o_data o)) by (apply SD; left; reflexivity).
    destruct (comp_settings o c C S0 B) as (E1 & _ & _ & E4).
    assert (N1 : (1 <= d_n (o_data o))%nat) by (destruct S0; lia).
    pose proof (bw_after_bounds (o_bw o) (d_n (o_data o)) N1 (proj1 B)) as BB. pose proof (bw_after_lt (o_bw o) _ N1 (proj1 B)) as LT.
    destruct (IH (snd (step c o)) NW') as (I1 & I2 & I3). { intros d Id. rewrite E1 in Id. apply SD. right. exact Id. } { rewrite E4. lra. }
    rewrite E1, E4 in *. set (b' := o_bw (run cs (snd (step c o)))) in *. split; [lra|]. split.
    + destruct I2 as [I2|(d & Id & Ld & Ed)].
      * rewrite I2. destruct (Z.le_gt_cases (Z.of_nat (d_n (o_data o))) (Int_part (o_bw o))).
        -- right. exists (o_data o). split; [left; reflexivity|]. split; [assumption|]. unfold bandwidth_after. rewrite (proj2 (Z.leb_le _ _)) by assumption. reflexivity.
        -- left. apply bw_after_id. lia.
      * right. exists d. split; [right; exact Id|]. split; [|exact Ed]. pose proof (Int_part_mono (bandwidth_after (o_bw o) (d_n (o_data o))) (o_bw o) ltac:(lra)). lia.
    + intros d [<-|Id]; [|apply I3; exact Id]. pose proof (Int_part_mono b' (bandwidth_after (o_bw o) (d_n (o_data o))) ltac:(lra)). lia.
  - destruct (SET C) as [E U]. rewrite U in *. destruct (IH (snd (step c o)) NW' SD) as (I1 & I2 & I3); [rewrite E; exact B|]. rewrite E in *. auto.
Qed.

(** After one fit or prediction the settings stay. *)
Lemma settled_main (o : object) c cs : is_computation c -> (forall c', In c' cs -> is_computation c') -> sound (o_data o) -> 0 <= o_bw o < IZR (2 ^ 64) ->
  same_settings (run cs (snd (step c o))) (snd (step c o)).
Proof.
  intros C CS S0 B. destruct (comp_settings o c C S0 B) as (E1 & E2 & E3 & E4). set (o1 := snd (step c o)) in *.
  assert (N1 : (1 <= d_n (o_data o))%nat) by (destruct S0; lia).
  pose proof (bw_after_bounds (o_bw o) _ N1 (proj1 B)) as BB. pose proof (bw_after_lt (o_bw o) _ N1 (proj1 B)) as LT.
  assert (G : forall l p, (forall c', In c' l -> is_computation c') -> same_settings p o1 -> same_settings (run l p) o1).
  { induction l as [|c' l IH]; intros p CL SS; [exact SS|]. cbn [ScaObjModel.run]. apply IH; [intros; apply CL; right; assumption|].
    destruct SS as (F1 & F2 & F3 & F4).
    destruct (comp_settings p c') as (G1 & G2 & G3 & G4); [apply CL; left; reflexivity|rewrite F1, E1; exact S0|rewrite F2, E4; lra|].
    repeat split; try congruence. rewrite G4, F2, F1, E1, E4. apply bw_after_id. exact LT. }
  apply G; [exact CS|repeat split].
Qed.

(** Answers after a history. *)
Lemma history_main cs (o p : object) c : same_settings (run cs o) p -> is_computation c ->
  two_kernels (o_kernel p) -> (forall rows col t, optimum (o_data p) (o_kernel p) (o_cv p) rows col t <> Ok None) ->
  fst (step c (run cs o)) = fst (step c p).
Proof.
  intros SS C K O. apply supported_spec in K. destruct (again_step p (run cs o) c) as [_ [E|(_ & _ & [E|(rows & col & t & E)])]]; [|exact C|auto|congruence|exfalso; eapply O; exact E].
  destruct SS as (A1 & A2 & A3 & A4). repeat split; auto.
Qed.
Lemma third_main (o : object) c c1 c2 : is_computation c -> is_computation c1 -> is_computation c2 -> sound (o_data o) -> 0 <= o_bw o < IZR (2 ^ 64) ->
  two_kernels (o_kernel o) -> (forall rows col t, optimum (o_data o) (o_kernel o) (o_cv o) rows col t <> Ok None) ->
  fst (step c (run [c1; c2] o)) = fst (step c (run [c1] o)).
Proof.
  intros C C1 C2 S0 B K O. change (run [c1; c2] o) with (run [c2] (snd (step c1 o))). cbn [ScaObjModel.run].
  destruct (comp_settings o c1 C1 S0 B) as (E1 & E2 & E3 & _).
  change (snd (step c2 (snd (step c1 o)))) with (run [c2] (snd (step c1 o))). apply history_main; try assumption.
  - apply settled_main; auto. intros c' [<-|[]]. exact C2.
  - rewrite E2. exact K.
  - intros. rewrite E1, E2, E3. apply O.
Qed.

(** When a second fit gets through. *)
Lemma refit_main cv bw n : (2 <= n)%nat -> accepted cv bw n ->
  (accepted cv (bandwidth_after bw n) n <-> ~ (cv = true /\ (Z.of_nat n <= Int_part bw)%Z /\ (n <= 51)%nat)).
Proof.
  intros N [B A]. pose proof (bw_after_bounds bw n ltac:(lia) (proj1 B)) as BB. pose proof (bw_after_part bw n ltac:(lia) (proj1 B)) as IP.
  unfold accepted. rewrite IP. unfold count. destruct cv.
  - split; [intros [_ H] (_ & H1 & H2); lia|intros H; split; [lra|]].
    destruct (Z.lt_ge_cases (Int_part bw) (Z.of_nat n)) as [L|L]; [left; lia|]. left. assert (~ (n <= 51)%nat) by tauto. lia.
  - split; [intros _ (H & _); discriminate|]. intros _. split; [lra|lia].
Qed.
Lemma rejected cv bw dist n : (2 <= n)%nat -> (Z.of_nat n < 2 ^ 61)%Z -> (forall i, (i < n)%nat -> length (dist i) = n) -> 0 <= bw < IZR (2 ^ 64) ->
  ~ accepted cv bw n -> first_stage sort_index cv bw dist n = Throw.
Proof.
  intros N N' D [B0 B1] A. destruct (first_stage sort_index cv bw dist n) as [r| |] eqn:E; [|reflexivity|].
  - exfalso. apply A. split; [lra|]. assert (X : exists r, first_stage sort_index cv bw dist n = Ok r) by eauto.
    destruct cv; [apply first_stage_cv in X|apply first_stage_aic in X]; auto; lia || tauto.
  - exfalso. revert E. apply first_stage_not_ub; auto. lia.
Qed.
Lemma refit_throws_main (o : object) c c' : is_computation c -> is_computation c' -> sound (o_data o) -> 0 <= o_bw o < IZR (2 ^ 64) ->
  two_kernels (o_kernel o) -> o_cv o = true -> (Z.of_nat (d_n (o_data o)) <= Int_part (o_bw o))%Z -> (d_n (o_data o) <= 51)%nat ->
  fst (step c' (snd (step c o))) = Threw.
Proof.
  intros C C' S0 B K CV L N51. apply supported_spec in K. destruct (comp_settings o c C S0 B) as (E1 & E2 & E3 & E4). set (o1 := snd (step c o)) in *.
  pose proof S0 as (N & N' & D). set (d := o_data o) in *. set (n := d_n d) in *.
  pose proof (bw_after_bounds (o_bw o) n ltac:(lia) (proj1 B)) as BB.
  assert (NA : ~ accepted true (bandwidth_after (o_bw o) n) n).
  { rewrite refit_main; [tauto|exact N|]. split; [exact B|right; exact L]. }
  assert (F : first_stage sort_index true (bandwidth_after (o_bw o) n) (d_dist d) n = Throw) by (apply rejected; auto; lra).
  assert (CM : forall z s1 s2 t, exists p, common sort_index d_n d_dist optimum z s1 s2 t o1 = Leave Threw p).
  { intros. unfold common. rewrite E1, E2, E3, E4, CV. fold n.
    pose proof (find_dp_not_ub _ SI (d_dist d) n (bandwidth_after (o_bw o) n) D ltac:(lia) N' ltac:(lra) ltac:(lra) true) as NU.
    destruct (find_dp sort_index true (bandwidth_after (o_bw o) n) (d_dist d) n) as [rows| |]; [|eauto|contradiction].
    rewrite K, F. eauto. }
  destruct c' as [s1 s2 s3 t|l s1 s2 s3 t| | |]; try contradiction; cbn [ScaObjModel.step].
  - unfold ScaObjModel.fit. destruct (CM (d_n (o_data o1), d_k (o_data o1)) s1 s2 t) as [p ->]. reflexivity.
  - unfold ScaObjModel.predict. destruct (CM (l_n l, d_n (o_data o1)) s1 s2 t) as [p ->]. reflexivity.
Qed.

(** Stale coefficients. *)
Lemma stale_main (o : object) c : sound (o_data o) -> accepted (o_cv o) (o_bw o) (d_n (o_data o)) ->
  (exists t, c = Fit false false false t \/ exists l, c = Predict l false false false t) ->
  supported (o_kernel o) = false \/ (forall rows col t, optimum (o_data o) (o_kernel o) (o_cv o) rows col t = Ok None) ->
  fst (step c o) = Matrix (o_betas o) /\ o_betas (snd (step c o)) = o_betas o /\ o_diag (snd (step c o)) = o_diag o /\ o_term (snd (step c o)) = o_term o.
Proof.
  intros (N & N' & D) A C H. set (d := o_data o) in *. set (n := d_n d) in *.
  destruct (search_ok _ _ _ _ N N' D A) as (rows & nb & col & E1 & E2 & _).
  assert (CM : forall z t, exists p, common sort_index d_n d_dist optimum z false false t o = Leave (Matrix (o_betas o)) p /\ o_betas p = o_betas o /\ o_diag p = o_diag o /\ o_term p = o_term o).
  { intros. unfold common. fold d. fold n. rewrite E2, E1. destruct (supported (o_kernel o)).
    - destruct H as [H|H]; [discriminate|]. rewrite H. eauto.
    - eauto. }
  destruct C as [t [->|[l ->]]]; cbn [ScaObjModel.step].
  - unfold ScaObjModel.fit. fold d. destruct (CM (d_n d, d_k d) t) as (p & -> & P). exact (conj eq_refl P).
  - unfold ScaObjModel.predict. fold d. destruct (CM (l_n l, d_n d) t) as (p & -> & P). exact (conj eq_refl P).
Qed.
Lemma fit_betas (o : object) t m : fst (fit false false false t o) = Matrix m -> o_betas (snd (fit false false false t o)) = m.
Proof.
  unfold ScaObjModel.fit, common. destruct (find_dp _ _ _ _ _) as [rows| |]; try discriminate.
  destruct (supported (o_kernel o)); [|cbn; congruence].
  destruct (first_stage _ _ _ _ _) as [[[? ?] col]| |]; try discriminate.
  destruct (optimum _ _ _ _ _ _) as [[[[c b] a]|]| |]; try discriminate; [|cbn; congruence].
  cbv zeta. match goal with |- context [match ?u with Ok _ => _ | Throw => _ | UB => _ end] => destruct u as [[m' s]| |] end; try discriminate.
  destruct (report _ _ _). cbn. congruence.
Qed.
Lemma fit_cv (o : object) t : o_cv (snd (fit false false false t o)) = o_cv o.
Proof.
  unfold ScaObjModel.fit, common. destruct (find_dp _ _ _ _ _) as [rows| |]; try reflexivity.
  destruct (supported (o_kernel o)); [|reflexivity].
  destruct (first_stage _ _ _ _ _) as [[[? ?] col]| |]; try reflexivity.
  destruct (optimum _ _ _ _ _ _) as [[[[c b] a]|]| |]; try reflexivity.
  cbv zeta. match goal with |- context [match ?u with Ok _ => _ | Throw => _ | UB => _ end] => destruct u as [[m' s]| |] end; try reflexivity.
  destruct (report _ _ _). reflexivity.
Qed.
Lemma stale_refuted (o : object) t m d2 b k t2 : fst (fit false false false t o) = Matrix m -> sound d2 -> accepted (o_cv o) b (d_n d2) ->
  ~ two_kernels k \/ (forall rows col u, optimum d2 k (o_cv o) rows col u = Ok None) ->
  fst (fit false false false t2 (run [Fit false false false t; SetData d2; SetWeight b k] o)) = Matrix m.
Proof.
  intros E S2 A H. rewrite <- supported_not in H. pose proof (fit_betas o t m E) as Eb. rewrite <- (fit_cv o t) in A, H. cbn [ScaObjModel.run ScaObjModel.step]. set (o1 := snd (fit false false false t o)) in *. cbn [fst snd o_data o_kernel o_cv o_crit o_scale o_penalty o_betas o_se o_diag o_term].
  destruct (stale_main (Object d2 b k (o_cv o1) (o_crit o1) (o_scale o1) (o_penalty o1) (o_betas o1) (o_se o1) (o_diag o1) (o_term o1)) (Fit false false false t2) S2 A) as [F _].
  - exists t2. left. reflexivity.
  - exact H.
  - cbn [ScaObjModel.step] in F. rewrite F. cbn [o_betas]. congruence.
Qed.

(** Cancellations. *)
Lemma shape_main (o : object) c r q : fst (step c o) = Zeros r q ->
  match c with
  | Fit _ _ _ _ => r = d_n (o_data o) /\ q = d_k (o_data o)
  | Predict l _ _ _ _ => r = l_n l /\ q = d_n (o_data o)
  | _ => False
  end.
Proof.
  assert (CM : forall z s1 s2 t a p, common sort_index d_n d_dist optimum z s1 s2 t o = Leave a p -> a = Zeros r q -> z = (r, q)).
  { intros z s1 s2 t a p E ->. unfold common in E. destruct (find_dp _ _ _ _ _); try discriminate.
    destruct (supported _); [|discriminate]. destruct (first_stage _ _ _ _ _) as [[[? ?] ?]| |]; try discriminate.
    destruct s1; [injection E; intros; destruct z; cbn in *; congruence|]. destruct (optimum _ _ _ _ _ _) as [u| |]; try discriminate.
    destruct s2; [injection E; intros; destruct z; cbn in *; congruence|]. destruct u as [[[? ?] ?]|]; discriminate. }
  destruct c as [s1 s2 s3 t|l s1 s2 s3 t| | |]; cbn [ScaObjModel.step fst]; try discriminate.
  - unfold ScaObjModel.fit. destruct (common _ _ _ _ _ _ _ _ o) as [p x y|a p] eqn:E.
    + match goal with |- context [match ?u with Ok _ => _ | Throw => _ | UB => _ end] => destruct u as [[m s]| |] end; try discriminate.
      destruct s3; [cbn; intros H; injection H; auto|]. destruct (report _ _ _). discriminate.
    + cbn. intros H. apply (CM _ _ _ _ _ _ E) in H. injection H; auto.
  - unfold ScaObjModel.predict. destruct (common _ _ _ _ _ _ _ _ o) as [p x y|a p] eqn:E.
    + match goal with |- context [match ?u with Ok _ => _ | Throw => _ | UB => _ end] => destruct u as [m| |] end; try discriminate.
      destruct s3; [cbn; intros H; injection H; auto|discriminate].
    + cbn. intros H. apply (CM _ _ _ _ _ _ E) in H. injection H; auto.
Qed.
Lemma shape_case (o : object) l s2 s3 t : sound (o_data o) -> two_kernels (o_kernel o) -> accepted (o_cv o) (o_bw o) (d_n (o_data o)) ->
  fst (predict l true s2 s3 t o) = Zeros (l_n l) (d_n (o_data o)).
Proof.
  intros (N & N' & D) K A. apply supported_spec in K. destruct (search_ok _ _ _ _ N N' D A) as (rows & nb & col & E1 & E2 & _).
  unfold ScaObjModel.predict, common. rewrite E2, E1, K. reflexivity.
Qed.
Lemma cancelled_main (o : object) t m : fst (fit false false false t o) = Matrix m ->
  two_kernels (o_kernel o) -> (forall rows col t, optimum (o_data o) (o_kernel o) (o_cv o) rows col t <> Ok None) ->
  fst (fit false false true t o) = Zeros (d_n (o_data o)) (d_k (o_data o)) /\
  o_betas (snd (fit false false true t o)) = m /\ o_diag (snd (fit false false true t o)) = o_diag o.
Proof.
  intros H K O. apply supported_spec in K. revert H. unfold ScaObjModel.fit, common. destruct (find_dp _ _ _ _ _) as [rows| |]; try discriminate. rewrite K.
  destruct (first_stage _ _ _ _ _) as [[[? ?] col]| |]; try discriminate. specialize (O rows col t).
  destruct (optimum _ _ _ _ _ _) as [[[[c b] a]|]| |]; try discriminate; [|contradiction].
  cbv zeta. match goal with |- context [match ?u with Ok _ => _ | Throw => _ | UB => _ end] => destruct u as [[m' s]| |] end; try discriminate.
  destruct (report _ _ _). cbn. intros H. repeat split. congruence.
Qed.

(** Settings and status after any calls. *)
Lemma common_keeps z s1 s2 t (o : object) : match common sort_index d_n d_dist optimum z s1 s2 t o with
  | Go p _ _ => o_data p = o_data o /\ o_kernel p = o_kernel o /\ o_cv p = o_cv o /\ o_term p = o_term o
  | Leave a p => o_data p = o_data o /\ o_kernel p = o_kernel o /\ o_cv p = o_cv o /\
      (o_term p = true <-> o_term o = true \/ exists r q, a = Zeros r q) end.
Proof.
  assert (N : forall a : answer Mat, (forall r q, a <> Zeros r q) -> (o_term o = true <-> o_term o = true \/ exists r q, a = Zeros r q)).
  { intros a Ha. split; [auto|]. intros [H|(r & q & H)]; [exact H|]. destruct (Ha r q H). }
  assert (Y : forall r q, true = true <-> o_term o = true \/ exists r' q', (Zeros r q : answer Mat) = Zeros r' q') by (intros; split; eauto).
  unfold common. destruct (find_dp _ _ _ _ _) as [rows| |]; try (repeat split; auto; apply N; discriminate).
  destruct (supported _); [|repeat split; auto; apply N; discriminate].
  destruct (first_stage _ _ _ _ _) as [[[? ?] col]| |]; try (repeat split; auto; apply N; discriminate).
  destruct s1; [repeat split; auto; apply Y|]. destruct (optimum _ _ _ _ _ _) as [r| |]; try (repeat split; auto; apply N; discriminate).
  cbv zeta. destruct s2; [repeat split; auto; apply Y|]. destruct r as [[[? ?] ?]|]; [repeat split; auto|repeat split; auto; apply N; discriminate].
Qed.
Lemma step_keeps c (o : object) : let p := snd (step c o) in
  o_data p = match sets_data c with Some d => d | None => o_data o end /\
  o_kernel p = match sets_kernel c with Some k => k | None => o_kernel o end /\
  o_cv p = match sets_criterion c with Some b => b | None => o_cv o end /\
  (o_term p = true <-> o_term o = true \/ exists r q, fst (step c o) = Zeros r q).
Proof.
  assert (N : forall a : answer Mat, (forall r q, a <> Zeros r q) -> (o_term o = true <-> o_term o = true \/ exists r q, a = Zeros r q)).
  { intros a Ha. split; [auto|]. intros [H|(r & q & H)]; [exact H|]. destruct (Ha r q H). }
  assert (Y : forall r q, true = true <-> o_term o = true \/ exists r' q', (Zeros r q : answer Mat) = Zeros r' q') by (intros; split; eauto).
  destruct c as [s1 s2 s3 t|l s1 s2 s3 t|d|b k|cv]; cbv zeta; cbn [ScaObjModel.step sets_data sets_kernel sets_criterion];
    try (repeat split; auto; apply N; discriminate).
  - unfold ScaObjModel.fit. pose proof (common_keeps (d_n (o_data o), d_k (o_data o)) s1 s2 t o) as H.
    destruct (common _ _ _ _ _ _ _ _ _) as [p b a|a p]; [|exact H]. destruct H as (H1 & H2 & H3 & H4). cbv zeta.
    match goal with |- context [match ?u with Ok _ => _ | Throw => _ | UB => _ end] => destruct u as [[m se]| |] end;
      try (cbn; rewrite H4; repeat split; auto; apply N; discriminate).
    destruct s3; [repeat split; auto; apply Y|]. destruct (report _ _ _). cbn. rewrite H4. repeat split; auto; apply N; discriminate.
  - unfold ScaObjModel.predict. pose proof (common_keeps (l_n l, d_n (o_data o)) s1 s2 t o) as H.
    destruct (common _ _ _ _ _ _ _ _ _) as [p b a|a p]; [|exact H]. destruct H as (H1 & H2 & H3 & H4). cbv zeta.
    match goal with |- context [match ?u with Ok _ => _ | Throw => _ | UB => _ end] => destruct u as [m| |] end;
      try (cbn; rewrite H4; repeat split; auto; apply N; discriminate).
    destruct s3; [repeat split; auto; apply Y|]. cbn. rewrite H4. repeat split; auto; apply N; discriminate.
Qed.
Lemma settings_main cs (o : object) : let p := run cs o in
  o_data p = last_set sets_data (o_data o) cs /\ o_kernel p = last_set sets_kernel (o_kernel o) cs /\
  o_cv p = last_set sets_criterion (o_cv o) cs.
Proof.
  revert o. induction cs as [|c cs IH]; intros o; [repeat split|]. destruct (step_keeps c o) as (H1 & H2 & H3 & _).
  cbv zeta in *. cbn [ScaObjModel.run]. destruct (IH (snd (step c o))) as (G1 & G2 & G3). rewrite G1, G2, G3, H1, H2, H3. repeat split.
Qed.
Lemma weight_main b k (o : object) : o_bw (snd (step (SetWeight b k) o)) = b.
Proof. reflexivity. Qed.
Lemma status_main cs (o : object) : o_term (run cs o) = true <->
  o_term o = true \/ exists cs1 c cs2 r q, cs = cs1 ++ c :: cs2 /\ fst (step c (run cs1 o)) = Zeros r q.
Proof.
  revert o. induction cs as [|c cs IH]; intros o.
  - cbn [ScaObjModel.run]. split; [auto|]. intros [H|(cs1 & c & cs2 & r & q & E & _)]; [exact H|destruct cs1; discriminate].
  - cbn [ScaObjModel.run]. rewrite IH. destruct (step_keeps c o) as (_ & _ & _ & H). rewrite H. split.
    + intros [[T|(r & q & E)]|(cs1 & c' & cs2 & r & q & E & F)]; [auto| |].
      * right. exists [], c, cs, r, q. auto.
      * right. exists (c :: cs1), c', cs2, r, q. split; [rewrite E; reflexivity|exact F].
    + intros [T|(cs1 & c' & cs2 & r & q & E & F)]; [auto|]. destruct cs1 as [|c1 cs1].
      * injection E as -> ->. left. right. eauto.
      * injection E as -> ->. right. exists cs1, c', cs2, r, q. auto.
Qed.
End P.
