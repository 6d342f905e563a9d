From Coq Require Import Reals Bool List Arith Lia Lra Psatz.
From Verif Require Import Outcome XReal XRealFacts Sums DiagModel DiagProofs OmpModel OmpSpec OmpProofs GlmModel GlmSpec GlmProofs GlmProofs2.
Import ListNotations.
Local Open Scope R_scope.

Lemma C63_poisson_main : forall n mu m, numbers n mu m -> (forall i, (i < n)%nat -> 2220446 / 10 ^ 22 <= m i) ->
  numbers n (poisson_linkinv n (poisson_linkfun mu)) m.
Proof.
  intros n mu m H P i L. assert (E := eps_pos). unfold eps in E.
  assert (P0 : forall i, (i < n)%nat -> 0 < m i) by (intros j Lj; specialize (P j Lj); lra).
  rewrite (poisson_roundtrip n mu m H P0 i L). f_equal. apply Rmax_left. apply P; exact L.
Qed.
Lemma C63_poisson_witness : exists mu m, 0 < m /\ xval (mu 0%nat) = Some m /\
  xval (poisson_linkinv 1 (poisson_linkfun mu) 0%nat) <> Some m.
Proof.
  exists (fun _ => XF (eps / 2)), (eps / 2). assert (E := eps_pos). split; [lra|]. split; [reflexivity|].
  rewrite (poisson_roundtrip 1 (fun _ => XF (eps / 2)) (fun _ => eps / 2)); [|intros i L; reflexivity|intros; lra|lia].
  rewrite Rmax_right by lra. intros H; injection H; lra.
Qed.
Lemma C63_valid_main : forall fam n eta, all_numbers n (fun _ => True) eta -> all_numbers n (valid_mean fam) (linkinv fam n eta).
Proof. exact linkinv_ok. Qed.
Lemma C63_derivative_main : exists f g : R -> R,
  (forall n eta es, numbers n eta es -> numbers n (poisson_linkinv n eta) (fun i => f (es i)) /\
                                        numbers n (poisson_muEta n eta) (fun i => g (es i))) /\
  (forall e, 2220446 / 10 ^ 22 < exp e -> derivable_pt_lim f e (g e)) /\
  (forall e, exp e < 2220446 / 10 ^ 22 -> derivable_pt_lim f e 0 /\ 0 < g e).
Proof.
  exists pinv, pinv. split; [|split].
  - intros n eta es H; split; [|rewrite poisson_muEta_eq]; apply poisson_clamp; exact H.
  - exact pinv_lim.
  - intros e H. destruct (pinv_lim0 e H) as [A B]. split; [exact A|apply pinv_pos].
Qed.
Lemma C63_binomial_derivative_main : exists f g : R -> R,
  (forall n eta es, numbers n eta es -> numbers n (binomial_linkinv eta) (fun i => f (es i)) /\
                                        numbers n (binomial_muEta eta) (fun i => g (es i))) /\
  forall e, derivable_pt_lim f e (g e).
Proof.
  exists binv, bder. split; [|exact binv_lim].
  intros n eta es H; split; [apply binomial_linkinv_val|apply binomial_muEta_val]; exact H.
Qed.

Lemma C64_poisson_main : forall n y mu w m ws, numbers n mu m -> numbers n w ws ->
  (forall i, (i < n)%nat -> 0 <= y i) -> (forall i, (i < n)%nat -> 0 < m i) -> (forall i, (i < n)%nat -> 0 < ws i) ->
  forall i, (i < n)%nat -> exists d, xval (poisson_devResids n y mu w i) = Some d /\ 0 <= d /\ (d = 0 <-> m i = y i).
Proof.
  intros n y mu w m ws Hm Hw Y M W i L. eexists; split; [apply (poisson_dev_val n y mu w m ws); auto|].
  assert (A := klz_nonneg _ _ (Y i L) (M i L)). assert (B := klz_zero _ _ (Y i L) (M i L)). specialize (W i L).
  split; [nra|]. rewrite <- B. split; intros Q; [nra|rewrite Q; ring].
Qed.
Lemma C64_binomial_main : forall n y mu w m ws, numbers n mu m -> numbers n w ws ->
  (forall i, (i < n)%nat -> 0 <= y i <= 1) -> (forall i, (i < n)%nat -> 0 < m i < 1) -> (forall i, (i < n)%nat -> 0 < ws i) ->
  forall i, (i < n)%nat -> exists d, xval (binomial_devResids y mu w i) = Some d /\ 0 <= d /\ (d = 0 <-> m i = y i).
Proof.
  intros n y mu w m ws Hm Hw Y M W i L. eexists; split; [apply (binomial_dev_val n y mu w m ws); auto|].
  destruct (two_klz _ _ (Y i L) (M i L)) as [A B]. specialize (W i L).
  split; [nra|]. rewrite <- B. split; intros Q; [nra|rewrite Q; ring].
Qed.
Lemma C64_local_main : forall n y mu m, numbers n mu m -> (forall i, (i < n)%nat -> 0 <= y i) ->
  (forall i, (i < n)%nat -> 0 < m i) ->
  exists d, xval (gw_dev n y mu) = Some d /\ xval (xsum n (poisson_devResids n y mu (fun _ => XF 1))) = Some d /\
    0 <= d /\ (d = 0 <-> forall i, (i < n)%nat -> m i = y i).
Proof.
  intros n y mu m Hm Y M. eexists; split; [apply gw_dev_val; eauto|]. split; [|split].
  - rewrite (xsum_val n _ (fun i => 2 * (1 * klz (y i) (m i)))).
    + f_equal. apply bigsum_ext. intros i L; ring.
    + apply (poisson_dev_val n y mu (fun _ => XF 1) m (fun _ => 1)); auto. intros i L; reflexivity.
  - apply bigsum_nonneg. intros i L. assert (A := klz_nonneg _ _ (Y i L) (M i L)). lra.
  - assert (P : forall i, (i < n)%nat -> 0 <= 2 * klz (y i) (m i)).
    { intros i L. assert (A := klz_nonneg _ _ (Y i L) (M i L)). lra. }
    split; intros Q.
    + intros i L. apply (klz_zero _ _ (Y i L) (M i L)). assert (B := bigsum_zero n _ P Q i L). cbv beta in B. lra.
    + rewrite (bigsum_ext n _ (fun _ => 0)); [apply bigsum_0|]. intros i L.
      rewrite (proj2 (klz_zero _ _ (Y i L) (M i L)) (Q i L)). ring.
Qed.
Lemma C64_local_binomial_main : forall n y mu m, numbers n mu m -> (forall i, (i < n)%nat -> y i = 0 \/ y i = 1) ->
  (forall i, (i < n)%nat -> 0 < m i < 1) ->
  exists d, xval (gw_dev_binomial n y mu) = Some d /\ xval (xsum n (binomial_devResids y mu (fun _ => XF 1))) = Some d /\ 0 <= d.
Proof.
  intros n y mu m Hm Y M. eexists; split; [apply gw_dev_binomial_val; eauto|].
  assert (Y' : forall i, (i < n)%nat -> 0 <= y i <= 1) by (intros i L; destruct (Y i L); lra). split.
  - rewrite (xsum_val n _ (fun i => 2 * 1 * (klz (y i) (m i) + klz (1 - y i) (1 - m i)))).
    + f_equal. apply bigsum_ext. intros i L; ring.
    + apply (binomial_dev_val n y mu (fun _ => XF 1) m (fun _ => 1)); auto. intros i L; reflexivity.
  - apply bigsum_nonneg. intros i L. destruct (two_klz _ _ (Y' i L) (M i L)). lra.
Qed.
Lemma C64_witness : exists y mu : nat -> R, 0 <= y 0%nat <= 1 /\ 0 < mu 0%nat < 1 /\ mu 0%nat = y 0%nat /\
  gw_dev_binomial 1 y (fun i => XF (mu i)) = XI false.
Proof.
  exists (fun _ => 1 / 2), (fun _ => 1 / 2). split; [lra|]. split; [lra|]. split; [reflexivity|].
  unfold gw_dev_binomial, xsum; cbv zeta. cbn [seq fold_left].
  assert (Z : Reqb 0 0 = true) by (apply Reqb_true; reflexivity).
  assert (Lt : Rltb 0 0 = false) by (apply Rltb_false; lra).
  assert (O : Reqb 1 0 = false) by (apply Reqb_false; lra).
  assert (Lo : Rltb 1 0 = false) by (apply Rltb_false; lra).
  assert (E : xadd (xsub (XF (1 / 2)) (XF 1)) (XF (1 / 2)) = XF 0).
  { unfold xsub, xopp. rewrite O. cbn [xadd]. f_equal. lra. }
  rewrite E.
  assert (M : xmul (XF 0) (XF 0) = XF 0).
  { cbn [xmul xval xsign]. rewrite Rmult_0_l, Lt. cbn [xorb]. unfold xfin. rewrite Z. reflexivity. }
  rewrite M. cbn [xdiv xval xsign]. rewrite Z, O, Lo, Lt. reflexivity.
Qed.

(** Examples *)
Definition ex_means : xvec := fun i => XF (INR i + 1 / 2).
Lemma ex_means_ok : numbers 3 ex_means (fun i => INR i + 1 / 2) /\ forall i, (i < 3)%nat -> 2220446 / 10 ^ 22 <= INR i + 1 / 2.
Proof.
  split; [intros i L; reflexivity|]. intros i L. assert (E := eps_small). assert (P := pos_INR i).
  assert (Q : 2220446 / 10 ^ 22 <= 1 / 2) by lra. lra.
Qed.
Lemma ex_run : exists r, irls_run Poisson (fun _ => 9 / 10) reg2 (fun _ => XF (-1)) (1 / 100000) 5 (fun _ => XF 0) = Ok r.
Proof. apply (C65_total_main Poisson 2); [apply reg2_ok|intros i L; simpl; lra|apply reg2_ok]. Qed.
Lemma ex_converges : exists r, irls_run Poisson (fun _ => 9 / 10) reg2 (fun _ => XF (-1)) (1 / 100000) 2 (fun _ => XF 0) = Ok r /\
  converged r = true.
Proof.
  unfold irls_run; cbv zeta. cbn [irls_loop]. unfold reg2. cbn [obind].
  assert (Q1 : xltb (xabs (xdiv (xsub (XF 0) (XF (-1))) (XF (-1)))) (XF (1 / 100000)) = false).
  { rewrite (xltb_val _ (XF (1 / 100000)) (Rabs ((0 - -1) / -1)) (1 / 100000)); [|apply xval_xabs, xval_xdiv; [apply xval_xsub; reflexivity|reflexivity|lra]|reflexivity].
    apply Rltb_false. replace ((0 - -1) / -1) with (-1) by field. rewrite Rabs_left; lra. }
  assert (Q2 : xltb (xabs (xdiv (xsub (XF (-1)) (XF (-1))) (XF (-1)))) (XF (1 / 100000)) = true).
  { rewrite (xltb_val _ (XF (1 / 100000)) (Rabs ((-1 - -1) / -1)) (1 / 100000)); [|apply xval_xabs, xval_xdiv; [apply xval_xsub; reflexivity|reflexivity|lra]|reflexivity].
    apply Rltb_true. replace ((-1 - -1) / -1) with 0 by field. rewrite Rabs_R0; lra. }
  rewrite Q1. cbv zeta. cbn [obind]. rewrite Q2. eexists; split; reflexivity.
Qed.
Lemma ex_glm : exists s, glm_fit Poisson 2 (fun i => INR i) (fun z w => reg2 w z) 25 (1 / 10 ^ 6) XN = Ok s.
Proof. apply C91_total_main; [apply reg2_ok|intros i L; simpl; apply pos_INR|apply reg2_ok]. Qed.
