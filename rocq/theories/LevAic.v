From Coq Require Import Reals Bool Lra Lia Arith Psatz.
From Verif Require Import XReal XRealFacts Sums KernelModel DiagModel DiagProofs GlmProofs LevSpec.
Local Open Scope R_scope.

(** General: the sign of the penalty *)
Lemma aicc_value : forall n p x b y s0, (0 < n)%nat -> 0 < rss_of n p x b y -> INR n - 2 - s0 <> 0 ->
  xval (base_aicc n p x b y s0) =
  Some (INR n * ln (rss_of n p x b y / INR n) + INR n * ln (2 * PI) + INR n * ((INR n + s0) / (INR n - 2 - s0))).
Proof.
  intros n p x b y s0 N P D. unfold base_aicc, loglik.
  assert (Pn : 0 < INR n) by (apply lt_0_INR; exact N). assert (Pp := PI_RGT_0).
  apply xval_xadd.
  - apply xval_xadd.
    + apply xval_xmul; [reflexivity|]. apply xval_xln; [apply xval_xdiv; [reflexivity|reflexivity|lra]|]. apply Rdiv_lt_0_compat; assumption.
    + apply xval_xmul; [reflexivity|]. apply xval_xln; [reflexivity|lra].
  - apply xval_xmul; [reflexivity|]. apply xval_xdiv; [reflexivity|reflexivity|exact D].
Qed.
Lemma penalty_main : forall n p x b y s0 s1, (0 < n)%nat ->
  let d := calc_diagnostic n p x b y s0 s1 in
  0 < RSSv d -> 0 <= s0 ->
  (s0 < INR n - 2 -> exists v, xval (AICc d) = Some v /\ INR n * ln (RSSv d / INR n) + INR n * ln (2 * PI) < v) /\
  (INR n - 2 < s0 -> exists v, xval (AICc d) = Some v /\ v < INR n * ln (RSSv d / INR n) + INR n * ln (2 * PI)).
Proof.
  intros n p x b y s0 s1 N d P S.
  assert (V := aicc_value n p x b y s0 N P). assert (Pn : 0 < INR n) by (apply lt_0_INR; exact N).
  change (AICc d) with (base_aicc n p x b y s0). change (RSSv d) with (rss_of n p x b y) in *.
  split; intros H; rewrite V by lra; eexists; (split; [reflexivity|]).
  - assert (0 < INR n * ((INR n + s0) / (INR n - 2 - s0))); [|lra].
    apply Rmult_lt_0_compat; [lra|]. apply Rdiv_lt_0_compat; lra.
  - assert (0 < INR n * ((INR n + s0) / (- (INR n - 2 - s0)))).
    { apply Rmult_lt_0_compat; [lra|]. apply Rdiv_lt_0_compat; lra. }
    replace ((INR n + s0) / (INR n - 2 - s0)) with (- ((INR n + s0) / (- (INR n - 2 - s0)))) by (field; lra). lra.
Qed.

(** ** The square *)
Definition w4 (u : R) (i j : nat) : R :=
  if Nat.eqb i j then 1 else if (Nat.eqb (i + j) 2 || Nat.eqb (i + j) 4)%bool then u * u else u.
Lemma gauss : forall d b, 0 < b -> xval (kernel_fn Gaussian (XF d) (XF b)) = Some (exp (d * d / (-2 * (b * b)))).
Proof.
  intros d b B. cbn [kernel_fn]. unfold k_gaussian.
  apply xval_xexp, xval_xdiv; [apply xval_xmul; reflexivity|apply xval_xmul; [reflexivity|apply xval_xmul; reflexivity]|]. nra.
Qed.
Lemma bigsum4 : forall f, bigsum 4 f = f 0%nat + f 1%nat + f 2%nat + f 3%nat.
Proof. intros f; cbn [bigsum]; ring. Qed.
Lemma w4_sum : forall u i, (i < 4)%nat -> bigsum 4 (w4 u i) = (1 + u) * (1 + u).
Proof. intros u i L. rewrite bigsum4. destruct i as [|[|[|[|i]]]]; [| | | |lia]; unfold w4; cbn; ring. Qed.
Lemma w4_gauss : forall b u, 0 < b -> u = exp (1 / (-2 * (b * b))) -> forall i j, (i < 4)%nat -> (j < 4)%nat ->
  xval (kernel_fn Gaussian (XF (corner_distance i j)) (XF b)) = Some (w4 u i j).
Proof.
  intros b u B U i j Li Lj. rewrite gauss by exact B. f_equal. unfold corner_distance.
  rewrite sqrt_sqrt by (apply Rplus_le_le_0_compat; apply pow2_ge_0).
  assert (K : u * u = exp (2 / (-2 * (b * b)))) by (rewrite U, <- exp_plus; f_equal; field; lra).
  destruct i as [|[|[|[|i]]]]; try lia; (destruct j as [|[|[|[|j]]]]; try lia); unfold w4; cbn [Nat.eqb Nat.add orb corner_x corner_y];
    try (rewrite K; f_equal; field; lra); try (rewrite U; f_equal; field; lra);
    replace (_ / _) with 0 by (field; lra); apply exp_0.
Qed.
Definition y4 (j : nat) : R := match j with 3%nat => 1 | _ => 0 end.
Definition b4 (u : R) (i : nat) (_ : nat) : R := bigsum 4 (fun j => w4 u i j * y4 j) / bigsum 4 (w4 u i).
Lemma square_rss : forall u, 0 < u < 1 -> 0 < rss_of 4 1 (fun _ _ => 1) (b4 u) y4 <= 4.
Proof.
  intros u U. unfold rss_of. rewrite bigsum4. unfold fitted, b4. cbn [bigsum].
  assert (Q : 1 < (1 + u) * (1 + u)) by nra.
  assert (E : forall i, (i < 4)%nat -> 0 + w4 u i 0 + w4 u i 1 + w4 u i 2 + w4 u i 3 = (1 + u) * (1 + u)).
  { intros i L. rewrite <- (w4_sum u i L), bigsum4. ring. }
  rewrite !E by lia. cbn [y4]. unfold w4; cbn [Nat.eqb Nat.add orb].
  set (q := (1 + u) * (1 + u)) in *.
  assert (A : forall a, 0 < a <= 1 -> 0 < a / q < 1).
  { intros a [A1 A2]. split; [apply Rdiv_lt_0_compat; lra|]. apply Rmult_lt_reg_r with q; [lra|]. unfold Rdiv; rewrite Rmult_assoc, Rinv_l by lra. lra. }
  assert (A1 := A 1 ltac:(lra)). assert (A2 := A u ltac:(lra)). assert (A3 := A (u * u) ltac:(nra)).
  set (a1 := 1 / q) in *. set (a2 := u / q) in *. set (a3 := u * u / q) in *.
  match goal with |- 0 < ?T <= 4 => replace T with (a2 * a2 + a3 * a3 + a2 * a2 + (1 - a1) * (1 - a1)) by (unfold a1, a2, a3; field; lra) end.
  nra.
Qed.
Lemma unbounded_main : forall M, exists b w v, 0 < b /\
  (forall i j, (i < 4)%nat -> (j < 4)%nat -> xval (kernel_fn Gaussian (XF (corner_distance i j)) (XF b)) = Some (w i j)) /\
  let beta i (_ : nat) := bigsum 4 (fun j => w i j * (if Nat.eqb j 3 then 1 else 0)) / bigsum 4 (w i) in
  let tr := bigsum 4 (fun i => w i i / bigsum 4 (w i)) in
  xval (base_aicc 4 1 (fun _ _ => 1) beta (fun j => if Nat.eqb j 3 then 1 else 0) tr) = Some v /\ v < M.
Proof.
  intros M.
  set (c := 4 * ln (2 * PI) - M).
  set (d := / (Rabs c + 2)).
  assert (Pc := Rabs_pos c). assert (Hd : 0 < d <= / 2).
  { unfold d; split; [apply Rinv_0_lt_compat; lra|apply Rinv_le_contravar; lra]. }
  set (r := sqrt (2 / (1 + d))).
  assert (R2 : r * r = 2 / (1 + d)) by (apply sqrt_sqrt; left; apply Rdiv_lt_0_compat; lra).
  assert (R2b : 1 < 2 / (1 + d) < 2).
  { split; apply Rmult_lt_reg_r with (1 + d); try lra; unfold Rdiv; rewrite Rmult_assoc, Rinv_l; lra. }
  assert (Pr : 0 <= r) by apply sqrt_pos.
  assert (Hr : 1 < r < 2) by (split; nra).
  set (u := r - 1). assert (U : 0 < u < 1) by (unfold u; split; nra).
  assert (Lu : ln u < 0) by (rewrite <- ln_1; apply ln_increasing; lra).
  set (b := sqrt (1 / (-2 * ln u))).
  assert (Bq : 0 < 1 / (-2 * ln u)) by (apply Rdiv_lt_0_compat; lra).
  assert (B : 0 < b) by (apply sqrt_lt_R0, Bq).
  assert (Ub : u = exp (1 / (-2 * (b * b)))).
  { unfold b. rewrite sqrt_sqrt by lra. replace (1 / (-2 * (1 / (-2 * ln u)))) with (ln u) by (field; lra). rewrite exp_ln; lra. }
  assert (Ey : forall j, (j < 4)%nat -> (if Nat.eqb j 3 then 1 else 0) = y4 j) by (intros [|[|[|[|j]]]] L; try lia; reflexivity).
  assert (Tr : bigsum 4 (fun i => w4 u i i / bigsum 4 (w4 u i)) = 2 * (1 + d)).
  { rewrite (bigsum_ext 4 _ (fun _ => 1 / ((1 + u) * (1 + u)))).
    - rewrite bigsum4. replace (1 + u) with r by (unfold u; ring). rewrite R2. field. lra.
    - intros i L. rewrite w4_sum by exact L. unfold w4. rewrite Nat.eqb_refl. reflexivity. }
  assert (RS := square_rss u U).
  exists b, (w4 u).
  assert (ER : rss_of 4 1 (fun _ _ => 1) (fun i _ => bigsum 4 (fun j => w4 u i j * (if Nat.eqb j 3 then 1 else 0)) / bigsum 4 (w4 u i)) (fun j => if Nat.eqb j 3 then 1 else 0) = rss_of 4 1 (fun _ _ => 1) (b4 u) y4).
  { unfold rss_of. apply bigsum_ext. intros i L. rewrite (Ey i L). unfold fitted, b4. cbn [bigsum]. cbn [Nat.eqb y4]. reflexivity. }
  eexists. split; [exact B|]. split; [apply w4_gauss; assumption|]. cbv zeta. split.
  - apply aicc_value; [lia|rewrite ER; lra|rewrite Tr; simpl INR; lra].
  - rewrite ER, Tr. replace (INR 4) with 4 by (simpl; ring).
    assert (Ln : ln (rss_of 4 1 (fun _ _ => 1) (b4 u) y4 / 4) <= 0).
    { rewrite <- ln_1. destruct (Req_dec (rss_of 4 1 (fun _ _ => 1) (b4 u) y4 / 4) 1) as [->|N]; [lra|].
      left. apply ln_increasing; lra. }
    replace (4 * ((4 + 2 * (1 + d)) / (4 - 2 - 2 * (1 + d)))) with (- 12 * / d - 4) by (field; lra).
    assert (I : / d = Rabs c + 2) by (unfold d; rewrite Rinv_inv; reflexivity). rewrite I.
    assert (Hc := Rle_abs c). unfold c in *. lra.
Qed.
Lemma penalty_case : (0 < 4)%nat /\ 0 < RSSv (calc_diagnostic 4 1 (fun _ _ => 1) (fun _ _ => 0) (fun _ => 1) 3 3) /\ INR 4 - 2 < 3.
Proof. split; [lia|]. split; [|simpl; lra]. unfold calc_diagnostic, diag_from; cbn [RSSv]. unfold rss_of, fitted. cbn [bigsum]. lra. Qed.
