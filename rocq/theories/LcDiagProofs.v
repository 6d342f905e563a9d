(** Proofs about LcDiagModel.v. *)
From Coq Require Import Reals Bool List Lra Lia.
From Verif Require Import XReal XRealFacts Sums DiagModel DiagProofs LcDiagModel.
Local Open Scope R_scope.

Lemma lc_agree_main n p x b y t0 t1 : let d := lc_diagnostic n p x b y t0 t1 in let d' := calc_diagnostic n p x b y t0 t1 in
  RSSv d = RSSv d' /\ ENP d = ENP d' /\ EDF d = EDF d' /\ R2 d = R2 d'.
Proof. cbn. repeat split; try reflexivity. ring. Qed.

Lemma ln_s2 rss e : 0 < rss -> 0 < e -> xval (xln (xmul (XF (2 * PI)) (xdiv (XF rss) (XF e)))) = Some (ln (2 * PI * (rss / e))).
Proof.
  intros P E. assert (0 < PI) by apply PI_RGT_0. apply xln_pos.
  - apply xval_xmul; [reflexivity|]. apply xval_xdiv; try reflexivity. lra.
  - apply Rmult_lt_0_compat; [lra|]. apply Rdiv_lt_0_compat; auto.
Qed.

Lemma lc_values_main n p x b y t0 t1 : let d := lc_diagnostic n p x b y t0 t1 in
  ENP d = 2 * t0 - t1 /\ EDF d = INR n - ENP d /\
  ((exists i j, (i < n)%nat /\ (j < n)%nat /\ y i <> y j) -> EDF d <> 0 ->
   exists r2, xval (R2 d) = Some r2 /\ xval (R2adj d) = Some (1 - (1 - r2) * (INR n - 1) / EDF d)) /\
  (0 < RSSv d -> 0 < EDF d -> let s2 := RSSv d / EDF d in
   xval (AIC d) = Some (INR n * (ln (2 * PI * s2) + 1) + 2 * (ENP d + 1)) /\
   ((0 < n)%nat -> INR n - 2 - ENP d <> 0 ->
    xval (AICc d) = Some (INR n * ln (2 * PI * s2) + INR n * ((INR n + ENP d) / (INR n - 2 - ENP d))))).
Proof.
  intros d. split; [reflexivity|]. split; [reflexivity|]. subst d. cbn [lc_diagnostic lc_diag_from RSSv AIC AICc ENP EDF R2 R2adj]. split.
  - intros NC NE. apply yss_pos in NC. exists (1 - rss_of n p x b y / yss_of n y). split; [apply r2_val; auto|].
    apply xval_xsub; [reflexivity|]. apply xval_xdiv; [|reflexivity|exact NE].
    apply xval_xmul; [|reflexivity]. apply xval_xsub; [reflexivity|]. apply r2_val; auto.
  - intros P E. split.
    + apply xval_xadd; [|reflexivity]. apply xval_xmul; [reflexivity|]. apply xval_xadd; [|reflexivity]. apply ln_s2; auto.
    + intros Pn N. assert (Hn : 0 < INR n) by (apply lt_0_INR; auto). apply xval_xadd; [apply xval_xmul; [reflexivity|]; apply ln_s2; auto|].
      apply xval_xmul; [reflexivity|].
      replace ((INR n + (2 * t0 - t1)) / (INR n - 2 - (2 * t0 - t1))) with ((1 + (2 * t0 - t1) / INR n) / (1 - (2 * t0 - t1 + 2) / INR n)).
      2:{ field. split; lra. }
      apply xval_xdiv.
      * apply xval_xadd; [reflexivity|]. apply xval_xdiv; try reflexivity. lra.
      * apply xval_xsub; [reflexivity|]. apply xval_xdiv; try reflexivity. lra.
      * intro Z. apply N. apply (f_equal (fun t => t * INR n)) in Z. rewrite Rmult_minus_distr_r in Z. unfold Rdiv in Z.
        rewrite Rmult_assoc, Rinv_l in Z by lra. lra.
Qed.

Lemma lc_adjusted_main n p x b y t0 t1 : let d := lc_diagnostic n p x b y t0 t1 in let d' := calc_diagnostic n p x b y t0 t1 in
  (exists i j, (i < n)%nat /\ (j < n)%nat /\ y i <> y j) -> 0 < RSSv d -> EDF d <> 0 -> EDF d <> 1 ->
  exists v v', xval (R2adj d) = Some v /\ xval (R2adj d') = Some v' /\ v <> v'.
Proof.
  intros d d' NC P N0 N1. destruct (lc_values_main n p x b y t0 t1) as (_ & _ & A & _). destruct (A NC N0) as (r2 & E & V). clear A.
  destruct (lc_agree_main n p x b y t0 t1) as (_ & _ & EE & ER).
  destruct (C50_r2_main n p x b y t0 t1 NC) as (r2' & E' & L & Z & V'). fold d in E, V, EE, ER. fold d' in E', V', EE, ER.
  assert (r2' = r2) by (rewrite <- ER, E in E'; inversion E'; auto). subst r2'.
  eexists. eexists. split; [exact V|]. split; [apply V'; rewrite <- EE; exact N1|]. rewrite <- EE. intro Q.
  assert (R1 : r2 < 1).
  { destruct L as [L|L]; [exact L|]. exfalso. destruct (C50_main n p x b y t0 t1) as (_ & ZZ & _). assert (L2 := proj2 ZZ (proj1 Z L)). subst d.
    cbn [lc_diagnostic lc_diag_from calc_diagnostic diag_from RSSv] in *. lra. }
  assert (n1 : 1 < INR n).
  { destruct NC as (i & j & Li & Lj & NE). apply (lt_INR 1 n). destruct (Nat.eq_dec i j); [subst; congruence|lia]. }
  assert (K : (1 - r2) * (INR n - 1) * (/ EDF d - / (EDF d - 1)) = 0) by (unfold Rdiv in Q; lra).
  apply Rmult_integral in K. destruct K as [K|K].
  - apply Rmult_integral in K. lra.
  - assert (K2 : / EDF d = / (EDF d - 1)) by lra. apply (f_equal Rinv) in K2. rewrite !Rinv_inv in K2. lra.
Qed.

Lemma lc_aic_main n p x b y t0 t1 : let d := lc_diagnostic n p x b y t0 t1 in let d' := calc_diagnostic n p x b y t0 t1 in
  (0 < n)%nat -> 0 < RSSv d -> 0 < EDF d -> exists v v', xval (AIC d) = Some v /\ xval (AIC d') = Some v' /\
  v - v' = INR n * ln (INR n / EDF d) + 2 * (ENP d + 1) - t0.
Proof.
  intros d d' Pn P E. assert (Hn : 0 < INR n) by (apply lt_0_INR; auto). destruct (lc_values_main n p x b y t0 t1) as (_ & _ & _ & A). destruct (A P E) as (V & _). clear A.
  destruct (C50_aicc_main n p x b y t0 t1 Pn P) as (V' & _). eexists. eexists. split; [exact V|]. split; [exact V'|].
  fold d d'. rewrite <- ln_sigma by auto. change (RSSv d') with (RSSv d). assert (0 < PI) by apply PI_RGT_0.
  assert (E2 : forall a c, 0 < a -> 0 < c -> ln (a / c) = ln a - ln c).
  { intros a c Pa Pc. unfold Rdiv. rewrite ln_mult, ln_Rinv; auto; try lra. apply Rinv_0_lt_compat; auto. }
  assert (E1 : ln (2 * PI * (RSSv d / EDF d)) = ln (2 * PI) + (ln (RSSv d) - ln (EDF d))).
  { rewrite ln_mult; [|lra|apply Rdiv_lt_0_compat; auto]. rewrite E2; auto. }
  rewrite E1, !E2 by auto. ring.
Qed.

Lemma xmul_neg a c e : 0 < a -> 0 < c -> e < 0 -> xln (xmul (XF a) (xdiv (XF c) (XF e))) = XN.
Proof.
  intros A C E.
  assert (V : xval (xmul (XF a) (xdiv (XF c) (XF e))) = Some (a * (c / e))) by (apply xval_xmul; [reflexivity|]; apply xval_xdiv; try reflexivity; lra).
  assert (N : a * (c / e) < 0).
  { assert (0 < a * c * / - e) by (apply Rmult_lt_0_compat; [nra|apply Rinv_0_lt_compat; lra]). rewrite Rinv_opp in H. unfold Rdiv. lra. }
  destruct (xmul (XF a) (xdiv (XF c) (XF e))) as [r| | |]; cbn in V; try discriminate; injection V as W.
  - subst r. set (r := a * (c / e)) in *. unfold xln. destruct (Reqb r 0) eqn:Q; [apply Reqb_true in Q; lra|]. destruct (Rltb r 0) eqn:T; [reflexivity|]. apply Rltb_false in T. lra.
  - lra.
Qed.
Lemma lc_negative n p x b y t0 t1 : let d := lc_diagnostic n p x b y t0 t1 in 0 < RSSv d -> EDF d < 0 -> AIC d = XN /\ AICc d = XN.
Proof.
  intros d P E. subst d. cbn [lc_diagnostic lc_diag_from RSSv AIC AICc EDF] in *. assert (0 < PI) by apply PI_RGT_0.
  rewrite xmul_neg by (assumption || lra). split; reflexivity.
Qed.
Lemma archimed_nat r : exists k, r < INR k.
Proof.
  exists (Z.to_nat (up (Rmax r 0))). destruct (archimed (Rmax r 0)) as [A _]. assert (B := Rmax_r r 0). assert (C := Rmax_l r 0).
  assert (0 < up (Rmax r 0))%Z by (apply lt_IZR; lra). rewrite INR_IZR_INZ, Z2Nat.id by lia. lra.
Qed.
Lemma lc_refit n p x b y t0 t1 : 0 < rss_of n p x b y -> 0 < 2 * t0 - t1 -> exists k0, forall k, (k0 <= k)%nat ->
  let d := lc_diagnostic n p x b y (INR k * t0) (INR k * t1) in AIC d = XN /\ AICc d = XN.
Proof.
  intros P E. destruct (archimed_nat (INR n / (2 * t0 - t1))) as (k0 & K). exists k0. intros k L. apply lc_negative; [exact P|].
  cbn [lc_diagnostic lc_diag_from EDF]. apply le_INR in L. assert (INR n / (2 * t0 - t1) < INR k) by lra.
  apply (Rmult_lt_compat_r (2 * t0 - t1)) in H; [|lra]. unfold Rdiv in H. rewrite Rmult_assoc, Rinv_l in H by lra. lra.
Qed.
Lemma lc_refit_main n p x b y t0 t1 : (exists i, (i < n)%nat /\ y i <> bigsum p (fun k => x i k * b i k)) -> 0 < 2 * t0 - t1 ->
  exists k0, forall k, (k0 <= k)%nat -> let d := lc_diagnostic n p x b y (INR k * t0) (INR k * t1) in AIC d = XN /\ AICc d = XN.
Proof.
  intros (i & L & N) E. apply lc_refit; [|exact E]. destruct (rss_nonneg n p x b y) as [P|P]; [exact P|]. exfalso. symmetry in P.
  apply N. rewrite (proj1 (rss_zero n p x b y) P i L). unfold fitted. apply bigsum_ext. intros; ring.
Qed.
