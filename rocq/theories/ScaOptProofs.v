From Coq Require Import Reals Bool List ZArith Lra Lia.
From Verif Require Import Outcome XReal KernelModel KernelProofs GwssSpec GwssCases GwdrModel GwdrSpec ScaNnModel ScaNnProofs ScaOptModel.
Import ListNotations.
Local Open Scope R_scope.

Lemma sca_loop_ok fuel g m iter : (0 < fuel /\ m < fuel + iter)%nat -> exists k,
  sca_loop fuel g m iter = Some k /\ (k <= Nat.max m (S iter))%nat.
Proof.
  revert iter. induction fuel as [|f IH]; intros iter H; [lia|]. cbn [sca_loop]. cbv zeta.
  destruct (g_stopped g (S iter)); [exists iter; split; [reflexivity|lia]|].
  destruct (negb (Z.eqb (g_status g (S iter)) 0)); [exists (S iter); split; [reflexivity|lia]|].
  destruct (Z.eqb (g_test g (S iter)) (-2)); cbn [andb]; [|exists (S iter); split; [reflexivity|lia]].
  destruct (Nat.ltb_spec (S iter) m); [|exists (S iter); split; [reflexivity|lia]].
  destruct (IH (S iter)) as (k & E & L); [lia|]. exists k. split; [exact E|lia].
Qed.

Lemma optimize_ok f g m start : g_status g 0 = 0%Z -> best_seen g -> exists v x,
  sca_optimize f g m start = Some (Some v, x) /\ v = f x /\ exists k, (k <= Nat.max 1 m)%nat /\ In x (calls g k) /\ x = g_x g k.
Proof.
  intros S0 B. unfold sca_optimize. rewrite S0. cbn [Z.eqb]. destruct (sca_loop_ok (S m) g m 0) as (k & -> & L); [lia|].
  exists (f (g_x g k)), (g_x g k). split; [reflexivity|]. split; [reflexivity|]. exists k. split; [lia|]. split; [apply B|reflexivity].
Qed.
Lemma optimize_better f g m start v x : g_status g 0 = 0%Z ->
  (forall k, f (g_x g (S k)) <= f (g_x g k)) -> f (g_x g 0) <= f start ->
  sca_optimize f g m start = Some (Some v, x) -> v <= f start.
Proof.
  intros S0 M F0. unfold sca_optimize. rewrite S0. cbn [Z.eqb]. destruct (sca_loop _ _ _ _) as [k|]; [|discriminate].
  intros E. injection E as <- <-. induction k as [|k IH]; [exact F0|]. eapply Rle_trans; [apply M|exact IH].
Qed.

Lemma refit_aic_rows n bw : (2 <= n)%nat -> 0 <= bw -> (Z.of_nat n <= Int_part bw)%Z -> asked bw n = n /\ asked (bandwidth_after bw n) n = (n - 1)%nat.
Proof.
  intros N B L. split; [unfold asked; lia|]. unfold bandwidth_after. rewrite (proj2 (Z.leb_le _ _) L). unfold asked.
  rewrite (Int_part_unique (INR n - 1) (Z.of_nat n - 1)); [lia|].
  rewrite minus_IZR, <- INR_IZR_INZ. simpl (IZR 1). lra.
Qed.

Definition d3 (i : nat) : list R := map (fun j => Rabs (INR j - INR i)) (seq 0 3).
Lemma refit_throws : (exists r, first_stage isort_index true 5 d3 3 = Ok r) /\
  first_stage isort_index true (bandwidth_after 5 3) d3 3 = Throw.
Proof.
  assert (D : forall i, (i < 3)%nat -> length (d3 i) = 3%nat) by (intros; unfold d3; rewrite map_length, seq_length; reflexivity).
  assert (I5 : Int_part 5 = 5%Z) by (apply Int_part_unique; lra).
  assert (B : bandwidth_after 5 3 = 2). { unfold bandwidth_after. rewrite I5. cbn [Z.leb Z.of_nat Pos.of_succ_nat Z.compare Pos.compare]. simpl. lra. }
  assert (I2 : Int_part 2 = 2%Z) by (apply Int_part_unique; lra).
  split.
  - apply first_stage_cv; auto using isort_index_ok; try lia; try (rewrite I5; lia); lra.
  - rewrite B. destruct (first_stage isort_index true 2 d3 3) as [r| |] eqn:E; [|reflexivity|].
    + exfalso. assert (X : exists r, first_stage isort_index true 2 d3 3 = Ok r) by (exists r; exact E).
      apply first_stage_cv in X; auto using isort_index_ok; try lia; try lra.
    + exfalso. revert E. apply first_stage_not_ub; auto using isort_index_ok; try lia; lra.
Qed.

Lemma criterion_same n sse trS : (2 <= n)%nat -> (Z.of_nat n < 2 ^ 64)%Z -> 0 < sse ->
  sca_criterion n sse trS = sca_aicc n sse trS.
Proof.
  intros N N' P. unfold sca_criterion, sca_aicc. rewrite Z.mod_small by lia. rewrite minus_IZR, <- INR_IZR_INZ. cbv zeta.
  assert (Q : 0 < sse / INR n). { apply Rdiv_lt_0_compat; [exact P|]. apply lt_0_INR; lia. }
  assert (L : 2 * ln (sqrt (sse / INR n)) = ln (sse / INR n)).
  { rewrite <- (sqrt_sqrt (sse / INR n)) at 2 by lra. rewrite ln_mult by (apply sqrt_lt_R0; exact Q). ring. }
  rewrite <- L. unfold Rdiv. ring.
Qed.

Section Nn.
Variable sort_index : list R -> list nat.
Hypothesis SI : sorts_indices sort_index.
Lemma own_list dist n bw rows i :
  (forall i, (i < n)%nat -> length (dist i) = n) -> (0 < n)%nat -> (Z.of_nat n < 2 ^ 61)%Z -> 0 <= bw -> bw < IZR (2 ^ 64) ->
  (i < n)%nat -> nth i (dist i) 0 = 0 -> (forall j, (j < n)%nat -> j <> i -> 0 < nth j (dist i) 0) ->
  (find_dp sort_index true bw dist n = Ok rows -> exists t ds, nth_error rows i = Some (i :: t, ds) /\ ~ In i t) /\
  (find_dp sort_index false bw dist n = Ok rows -> exists t ds, nth_error rows i = Some (i :: i :: t, ds) /\ ~ In i t).
Proof.
  intros D N N' B0 B1 I Z P. split; intros E.
  - rewrite (find_dp_cv sort_index SI dist n bw D N N' B0 B1) in E. destruct (Nat.leb_spec 2 (asked bw n)); [|discriminate].
    injection E as <-. rewrite nth_rows by assumption.
    destruct (self_first sort_index SI dist n D N N' (asked bw n - 1) i I ltac:(lia) Z P) as (t & T & NI).
    exists t, (snd (row_of sort_index dist (asked bw n - 1) i)). split; [|exact NI]. rewrite <- T. destruct (row_of _ _ _ _); reflexivity.
  - rewrite (find_dp_aic sort_index SI dist n bw D N N' B0 B1) in E. destruct (Nat.leb_spec 1 (asked bw n)); [|discriminate].
    injection E as <-. rewrite nth_rows by assumption.
    destruct (self_first sort_index SI dist n D N N' (asked bw n) i I ltac:(lia) Z P) as (t & T & NI).
    exists t, (0 :: snd (row_of sort_index dist (asked bw n) i)). split; [|exact NI]. rewrite <- T. reflexivity.
Qed.

Lemma valid_throws dist n bw :
  (forall i, (i < n)%nat -> length (dist i) = n) -> (0 < n)%nat -> (Z.of_nat n < 2 ^ 61)%Z -> 0 <= bw -> (Int_part bw <= 50)%Z -> (Int_part bw < Z.of_nat n)%Z ->
  first_stage sort_index true bw dist n = Throw.
Proof.
  intros D N N' B0 B L.
  assert (B1 : bw < IZR (2 ^ 64)). { pose proof (Int_part_spec bw). pose proof (IZR_le _ _ B). assert (IZR 51 < IZR (2 ^ 64)) by (apply IZR_lt; lia). simpl (IZR 50) in *. lra. }
  destruct (first_stage sort_index true bw dist n) as [r| |] eqn:E; [|reflexivity|].
  - exfalso. assert (X : exists r, first_stage sort_index true bw dist n = Ok r) by (exists r; exact E).
    apply (first_stage_cv sort_index SI dist n bw D N N' B0 B1) in X. lia.
  - exfalso. revert E. apply (first_stage_not_ub sort_index SI dist n bw D N N' B0 B1).
Qed.
End Nn.

Lemma d3_case : (forall i, (i < 3)%nat -> length (d3 i) = 3%nat) /\
  forall i, (i < 3)%nat -> nth i (d3 i) 0 = 0 /\ forall j, (j < 3)%nat -> j <> i -> 0 < nth j (d3 i) 0.
Proof.
  split; [intros; unfold d3; rewrite map_length, seq_length; reflexivity|].
  assert (E : forall i j, (j < 3)%nat -> nth j (d3 i) 0 = Rabs (INR j - INR i)).
  { intros i j J. unfold d3. rewrite nth_indep with (d' := Rabs (INR 0 - INR i)) by (rewrite map_length, seq_length; exact J).
    rewrite (map_nth (fun j => Rabs (INR j - INR i))). rewrite seq_nth by exact J. reflexivity. }
  intros i I. split.
  - rewrite E by exact I. rewrite Rminus_diag_eq by reflexivity. apply Rabs_R0.
  - intros j J NE. rewrite E by exact J. apply Rabs_pos_lt. intros Z. apply Rminus_diag_uniq in Z. apply INR_eq in Z. exact (NE Z).
Qed.
Lemma d3_rows : (exists rows, find_dp isort_index true 5 d3 3 = Ok rows) /\ exists rows, find_dp isort_index false 5 d3 3 = Ok rows.
Proof.
  assert (I5 : Int_part 5 = 5%Z) by (apply Int_part_unique; lra).
  assert (A : asked 5 3 = 3%nat) by (unfold asked; rewrite I5; reflexivity).
  destruct d3_case as [D _].
  split.
  - rewrite (find_dp_cv isort_index isort_index_ok d3 3 5 D), A by (lia || lra). eexists; reflexivity.
  - rewrite (find_dp_aic isort_index isort_index_ok d3 3 5 D), A by (lia || lra). eexists; reflexivity.
Qed.
