From Coq Require Import Reals Bool List Lra Lia.
From Verif Require Import XReal XRealFacts Sums DiagModel.
Local Open Scope R_scope.

Lemma bigsum_nonneg : forall n f, (forall i, (i < n)%nat -> 0 <= f i) -> 0 <= bigsum n f.
Proof. intros n f H; rewrite <- (bigsum_0 n); apply bigsum_le; auto. Qed.

Lemma bigsum_zero : forall n f, (forall i, (i < n)%nat -> 0 <= f i) -> bigsum n f = 0 ->
  forall i, (i < n)%nat -> f i = 0.
Proof.
  induction n as [|m IH]; intros f H Z i L; [lia|]; simpl in Z.
  assert (P : 0 <= bigsum m f) by (apply bigsum_nonneg; intros; apply H; lia).
  assert (Q : 0 <= f m) by (apply H; lia).
  destruct (Nat.eq_dec i m) as [->|N]; [lra|].
  apply IH; [intros; apply H; lia|lra|lia].
Qed.

Lemma rss_nonneg : forall n p x b y, 0 <= rss_of n p x b y.
Proof. intros; apply bigsum_nonneg; intros; apply Rle_0_sqr. Qed.

Lemma rss_zero : forall n p x b y, rss_of n p x b y = 0 <->
  forall i, (i < n)%nat -> y i = fitted p x b i.
Proof.
  intros n p x b y; split.
  - intros Z i L.
    assert (E := bigsum_zero n _ (fun i _ => Rle_0_sqr (y i - fitted p x b i)) Z i L).
    simpl in E; unfold Rsqr in E; apply Rmult_integral in E; lra.
  - intros H; unfold rss_of; transitivity (bigsum n (fun _ => 0)); [|apply bigsum_0].
    apply bigsum_ext; intros i L; rewrite (H i L); ring.
Qed.

Lemma bigsum_const : forall n c, bigsum n (fun _ => c) = INR n * c.
Proof. induction n; intros c; [simpl; ring|]; rewrite S_INR; simpl bigsum; rewrite IHn; ring. Qed.

Lemma yss_pos : forall n y, 0 < yss_of n y <->
  exists i j, (i < n)%nat /\ (j < n)%nat /\ y i <> y j.
Proof.
  intros n y; split.
  - intros P; destruct n as [|m]; [unfold yss_of in P; simpl in P; lra|].
    assert (D : (forall i, (i < S m)%nat -> y i = y 0%nat) \/ exists i, (i < S m)%nat /\ y i <> y 0%nat).
    { clear P; generalize (S m); intros k; induction k as [|k [IH|[i [L N]]]].
      - left; intros; lia.
      - destruct (Req_dec (y k) (y 0%nat)) as [E|E].
        + left; intros i L; destruct (Nat.eq_dec i k) as [->|]; [auto|apply IH; lia].
        + right; exists k; split; [lia|auto].
      - right; exists i; split; [lia|auto]. }
    destruct D as [D|[i [L N]]]; [|exists i, 0%nat; repeat split; auto; lia].
    exfalso; assert (M : mean (S m) y = y 0%nat).
    { unfold mean; rewrite (bigsum_ext _ y (fun _ => y 0%nat) D), bigsum_const.
      field; apply not_0_INR; lia. }
    assert (Z : yss_of (S m) y = 0).
    { unfold yss_of; transitivity (bigsum (S m) (fun _ => 0)); [|apply bigsum_0].
      apply bigsum_ext; intros i L; rewrite M, (D i L); ring. }
    lra.
  - intros [i [j [Li [Lj N]]]].
    assert (P : 0 <= yss_of n y) by (apply bigsum_nonneg; intros; apply Rle_0_sqr).
    destruct P as [P|P]; [exact P|exfalso]; symmetry in P.
    assert (Z := bigsum_zero n _ (fun i _ => Rle_0_sqr (y i - mean n y)) P).
    assert (Zi := Z i Li); assert (Zj := Z j Lj); unfold Rsqr in *.
    apply Rmult_integral in Zi; apply Rmult_integral in Zj; lra.
Qed.

Lemma xln_pos : forall x r, xval x = Some r -> 0 < r -> xval (xln x) = Some (ln r).
Proof.
  intros [a| | |] r E P; cbn in E; try discriminate; injection E as <-; [|lra].
  cbn; destruct (Reqb a 0) eqn:Q; [apply Reqb_true in Q; lra|].
  destruct (Rltb a 0) eqn:T; [apply Rltb_true in T; lra|reflexivity].
Qed.

Lemma loglik_val : forall n rss, 0 < n -> 0 < rss ->
  xval (loglik n rss) = Some (n * ln (rss / n) + n * ln (2 * PI)).
Proof.
  intros n rss Pn Pr; unfold loglik; assert (0 < PI) by apply PI_RGT_0.
  apply xval_xadd; apply xval_xmul; try reflexivity; apply xln_pos; try reflexivity; try lra.
  - apply xval_xdiv; try reflexivity; lra.
  - apply Rdiv_lt_0_compat; auto.
Qed.

Lemma xi_add : forall x r, xval x = Some r -> xadd (XI true) x = XI true.
Proof. intros [a| | |] r E; cbn in E; try discriminate; reflexivity. Qed.

Lemma loglik_zero : forall n, 0 < n -> loglik n 0 = XI true.
Proof.
  intros n Pn; unfold loglik.
  assert (X : xval (xmul (XF n) (xln (XF (2 * PI)))) = Some (n * ln (2 * PI))).
  { apply xval_xmul; [reflexivity|]; apply xln_pos; [reflexivity|].
    assert (0 < PI) by apply PI_RGT_0; lra. }
  enough (E : xmul (XF n) (xln (xdiv (XF 0) (XF n))) = XI true) by (rewrite E; exact (xi_add _ _ X)).
  clear X; unfold xdiv; cbn [xval].
  destruct (Reqb n 0) eqn:Q; [apply Reqb_true in Q; lra|].
  assert (E : 0 / n = 0) by (unfold Rdiv; ring).
  rewrite E; unfold xfin; rewrite (proj2 (Reqb_true 0 0) eq_refl).
  cbn [xsign]; rewrite (proj2 (Rltb_false 0 0) (Rle_refl 0)), (proj2 (Rltb_false n 0)) by lra.
  cbn [xorb xln]; rewrite (proj2 (Reqb_true 0 0) eq_refl).
  cbn [xmul xval xsign]; rewrite Q, (proj2 (Rltb_false n 0)) by lra; reflexivity.
Qed.

Lemma r2_val : forall rss yss, 0 < yss ->
  xval (xsub (XF 1) (xdiv (XF rss) (XF yss))) = Some (1 - rss / yss).
Proof.
  intros; apply xval_xsub; [reflexivity|]; apply xval_xdiv; try reflexivity; lra.
Qed.

Lemma C50_main : forall n p x b y s0 s1, let d := calc_diagnostic n p x b y s0 s1 in
  0 <= RSSv d /\
  (RSSv d = 0 <-> forall i, (i < n)%nat -> y i = bigsum p (fun k => x i k * b i k)) /\
  ENP d + EDF d = INR n.
Proof.
  intros n p x b y s0 s1 d; subst d; cbn [calc_diagnostic diag_from RSSv ENP EDF].
  split; [apply rss_nonneg|]; split; [|ring].
  rewrite rss_zero; unfold fitted; split; intros H i L; rewrite (H i L); apply bigsum_ext; intros; ring.
Qed.

Lemma C50_r2_main : forall n p x b y s0 s1, let d := calc_diagnostic n p x b y s0 s1 in
  (exists i j, (i < n)%nat /\ (j < n)%nat /\ y i <> y j) ->
  exists r2, xval (R2 d) = Some r2 /\ r2 <= 1 /\
    (r2 = 1 <-> forall i, (i < n)%nat -> y i = bigsum p (fun k => x i k * b i k)) /\
    (EDF d <> 1 -> xval (R2adj d) = Some (1 - (1 - r2) * (INR n - 1) / (EDF d - 1))).
Proof.
  intros n p x b y s0 s1 d NC; apply yss_pos in NC.
  destruct (C50_main n p x b y s0 s1) as [P [Z _]]; fold d in P, Z.
  exists (1 - RSSv d / yss_of n y); subst d; cbn [calc_diagnostic diag_from RSSv ENP EDF R2 R2adj] in *.
  split; [apply r2_val; auto|]; split; [|split].
  - assert (0 <= rss_of n p x b y / yss_of n y); [|lra].
    apply Rmult_le_pos; [auto|]; left; apply Rinv_0_lt_compat; auto.
  - rewrite <- Z; split; intros E.
    + assert (E' : rss_of n p x b y / yss_of n y = 0) by lra.
      apply (f_equal (fun t => t * yss_of n y)) in E'; unfold Rdiv in E'.
      rewrite Rmult_assoc, Rinv_l, Rmult_1_r, Rmult_0_l in E'; lra.
    + rewrite E; unfold Rdiv; ring.
  - intros NE; apply xval_xsub; [reflexivity|]; apply xval_xdiv; [|reflexivity|lra].
    apply xval_xmul; [|reflexivity]; apply xval_xsub; [reflexivity|]; apply r2_val; auto.
Qed.

Lemma ln_sigma : forall n rss, 0 < n -> 0 < rss -> n * ln (rss / n) = 2 * n * ln (sqrt (rss / n)).
Proof.
  intros n rss Pn Pr; assert (Q : 0 < rss / n) by (apply Rdiv_lt_0_compat; auto).
  rewrite <- (sqrt_sqrt (rss / n)) at 1 by lra.
  rewrite ln_mult by (apply sqrt_lt_R0; auto); ring.
Qed.

Lemma C50_aicc_main : forall n p x b y s0 s1, let d := calc_diagnostic n p x b y s0 s1 in
  (0 < n)%nat -> 0 < RSSv d ->
  let sigma := sqrt (RSSv d / INR n) in
  xval (AIC d) = Some (2 * INR n * ln sigma + INR n * ln (2 * PI) + INR n + s0) /\
  (INR n - 2 - s0 <> 0 ->
   xval (AICc d) = Some (2 * INR n * ln sigma + INR n * ln (2 * PI)
                         + INR n * ((INR n + s0) / (INR n - 2 - s0)))) /\
  AICc d = base_aicc n p x b y s0.
Proof.
  intros n p x b y s0 s1 d Pn Pr sigma; subst sigma.
  assert (Hn : 0 < INR n) by (apply lt_0_INR; auto).
  rewrite <- ln_sigma by auto.
  subst d; cbn [calc_diagnostic diag_from RSSv AIC AICc] in *.
  split; [|split; [|reflexivity]].
  - apply xval_xadd; [apply xval_xadd; [apply loglik_val; auto|reflexivity]|reflexivity].
  - intros N; apply xval_xadd; [apply loglik_val; auto|].
    apply xval_xmul; [reflexivity|]; apply xval_xdiv; auto.
Qed.

Lemma C50_perfect_main : forall n p x b y s0 s1, let d := calc_diagnostic n p x b y s0 s1 in
  (0 < n)%nat -> (forall i, (i < n)%nat -> y i = bigsum p (fun k => x i k * b i k)) ->
  AIC d = XI true /\ (INR n - 2 - s0 <> 0 -> AICc d = XI true).
Proof.
  intros n p x b y s0 s1 d Pn H.
  assert (Hn : 0 < INR n) by (apply lt_0_INR; auto).
  destruct (C50_main n p x b y s0 s1) as [_ [Z _]]; apply Z in H.
  subst d; cbn [calc_diagnostic diag_from RSSv AIC AICc] in *; rewrite H, loglik_zero by auto.
  split; [reflexivity|]; intros N.
  eapply xi_add; apply xval_xmul; [reflexivity|]; apply xval_xdiv; [reflexivity|reflexivity|exact N].
Qed.

Lemma C88_main : forall n p x b y s0 s1 se2, let d := calc_diagnostic n p x b y s0 s1 in
  0 <= se2 -> 0 < EDF d ->
  exists se, xval (beta_se n p x b y s0 s1 se2) = Some se /\ 0 <= se /\
    se * se = RSSv d / (INR n - ENP d) * se2.
Proof.
  intros n p x b y s0 s1 se2 d P0 PE.
  assert (Q := rss_nonneg n p x b y).
  subst d; cbn [calc_diagnostic diag_from RSSv EDF ENP beta_se] in *.
  set (e := INR n - 2 * s0 + s1) in *; set (r := rss_of n p x b y) in *.
  assert (R0 : 0 <= r / e * se2).
  { apply Rmult_le_pos; auto; apply Rmult_le_pos; auto; left; apply Rinv_0_lt_compat; auto. }
  exists (sqrt (r / e * se2)); split; [|split; [apply sqrt_pos|]].
  - apply xval_xsqrt; [|exact R0]; apply xval_xmul; [|reflexivity]; apply xval_xdiv; [reflexivity|reflexivity|lra].
  - rewrite sqrt_sqrt by auto; replace (INR n - (2 * s0 - s1)) with e by (subst e; ring); reflexivity.
Qed.

(** An example: y = 0, 1, 2 fitted by the constants 1. *)
Lemma diag_case : let d := calc_diagnostic 3 1 (fun _ _ => 1) (fun _ _ => 1) INR 1 1 in
  RSSv d = 2 /\ EDF d = 2 /\ (exists i j, (i < 3)%nat /\ (j < 3)%nat /\ INR i <> INR j) /\ INR 3 - 2 - 2 <> 0.
Proof.
  cbn [calc_diagnostic diag_from RSSv EDF]; unfold rss_of, fitted; simpl.
  split; [lra|]; split; [lra|]; split; [|lra].
  exists 0%nat, 1%nat; repeat split; try lia; simpl; lra.
Qed.
Lemma diag_case0 : (0 < 2)%nat /\ forall i, (i < 2)%nat -> INR i = bigsum 1 (fun k => 1 * INR i).
Proof. split; [lia|]; intros i _; simpl; ring. Qed.

Lemma C50_values_main : forall n p x b y s0 s1, let d := calc_diagnostic n p x b y s0 s1 in
  RSSv d = bigsum n (fun i => (y i - bigsum p (fun k => x i k * b i k)) ^ 2) /\
  ENP d = 2 * s0 - s1 /\ EDF d = INR n - (2 * s0 - s1) /\
  ((exists i j, (i < n)%nat /\ (j < n)%nat /\ y i <> y j) ->
   xval (R2 d) = Some (1 - bigsum n (fun i => (y i - bigsum p (fun k => x i k * b i k)) ^ 2)
                           / bigsum n (fun i => (y i - bigsum n y / INR n) ^ 2))).
Proof.
  intros n p x b y s0 s1 d.
  assert (Hr : rss_of n p x b y = bigsum n (fun i => (y i - bigsum p (fun k => x i k * b i k)) ^ 2)).
  { unfold rss_of. apply bigsum_ext; intros i _. unfold fitted.
    rewrite (bigsum_ext p (fun k => b i k * x i k) (fun k => x i k * b i k)); [ring | intros; ring]. }
  assert (Hy : yss_of n y = bigsum n (fun i => (y i - bigsum n y / INR n) ^ 2)).
  { unfold yss_of, mean. apply bigsum_ext; intros i _. ring. }
  repeat split; try (unfold d, calc_diagnostic, diag_from; cbn [RSSv ENP EDF]; try exact Hr; ring).
  intros H. apply yss_pos in H. unfold d, calc_diagnostic, diag_from; cbn [R2].
  rewrite <- Hr, <- Hy. apply r2_val. exact H.
Qed.
