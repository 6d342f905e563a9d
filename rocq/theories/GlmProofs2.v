From Coq Require Import Reals Bool List Arith Lia Lra Psatz Permutation.
From Verif Require Import Outcome XReal XRealFacts Sums DiagModel DiagProofs OmpModel OmpSpec OmpProofs GlmModel GlmSpec GlmProofs.
Import ListNotations.
Local Open Scope R_scope.

(** ** Local scoring *)
Section Irls.
Variables (fam : family) (n : nat) (y : nat -> R).
Variable regress : xvec -> xvec -> outcome xvec.
Variable llik : xvec -> xd.
Variable tol : R.
Hypothesis K : keeps_numbers n regress.
Hypothesis Y : valid_response fam n y.
Definition call_ok (c : xvec * xvec) : Prop :=
  all_numbers n (Rlt 0) (fst c) /\ all_numbers n (fun _ => True) (snd c).

Lemma adjusted_ok : forall nu mu, all_numbers n (fun _ => True) nu -> all_numbers n (valid_mean fam) mu ->
  all_numbers n (fun _ => True) (adjusted fam y nu mu).
Proof.
  intros nu mu Hn Hm i L. destruct (Hn i L) as [e [E _]]. destruct (Hm i L) as [m [M V]].
  unfold adjusted. destruct fam; simpl in V.
  - eexists; split; [|exact I]. apply xval_xadd; [exact E|]. apply xval_xdiv; [|exact M|lra].
    apply xval_xsub; [reflexivity|exact M].
  - eexists; split; [|exact I]. apply xval_xadd; [exact E|]. apply xval_xdiv.
    + apply xval_xsub; [reflexivity|exact M].
    + apply xval_xmul; [exact M|]. apply xval_xsub; [reflexivity|exact M].
    + nra.
Qed.
Lemma means_ok : forall nu, all_numbers n (fun _ => True) nu -> all_numbers n (valid_mean fam) (means fam nu).
Proof.
  intros nu Hn i L. destruct (Hn i L) as [e [E _]]. unfold means. assert (P := exp_pos e). destruct fam; cbn [valid_mean].
  - exists (exp e); split; [apply xval_xexp; exact E|exact P].
  - exists (binv e). split; [|apply binv_range]. unfold binv.
    apply xval_xdiv; [apply xval_xexp; exact E| |lra]. apply xval_xadd; [reflexivity|apply xval_xexp; exact E].
Qed.
Lemma working_ok : forall mu, all_numbers n (valid_mean fam) mu -> all_numbers n (Rlt 0) (working fam mu).
Proof.
  intros mu Hm i L. destruct (Hm i L) as [m [M V]]. unfold working. destruct fam; simpl in V.
  - exists m; auto.
  - exists (1 * m * (1 - m)). split; [|nra]. apply xval_xmul; [apply xval_xmul; [reflexivity|exact M]|].
    apply xval_xsub; [reflexivity|exact M].
Qed.

Lemma irls_loop_ok : forall k mu nu w adj ll cs r,
  all_numbers n (valid_mean fam) mu -> all_numbers n (fun _ => True) nu -> all_numbers n (Rlt 0) w ->
  Forall call_ok cs -> irls_loop fam y regress llik tol k mu nu w adj ll cs = Ok r ->
  (length (calls r) <= length cs + k)%nat /\ all_numbers n (valid_mean fam) (mean r) /\ Forall call_ok (calls r) /\
  (converged r = true -> exists nu, regress (wt2 r) (yadj r) = Ok nu /\ mean r = means fam nu /\ exists cs', calls r = cs' ++ [(wt2 r, yadj r)]).
Proof.
  induction k as [|k IH]; intros mu nu w adj ll cs r Hm Hn Hw Hc; cbn [irls_loop].
  - intros H; injection H as <-. simpl. split; [lia|]. split; [exact Hm|]. split; [exact Hc|discriminate].
  - set (adj' := adjusted fam y nu mu). assert (Ha : all_numbers n (fun _ => True) adj') by (apply adjusted_ok; assumption).
    destruct (regress w adj') as [nu'| |] eqn:E; cbn [obind]; try discriminate.
    assert (Hn' := K w adj' nu' Hw Ha E). assert (Hm' := means_ok nu' Hn').
    assert (Hc' : Forall call_ok (cs ++ [(w, adj')])).
    { apply Forall_app; split; [exact Hc|]. constructor; [split; assumption|constructor]. }
    cbv zeta. destruct (xltb _ _).
    + intros H; injection H as <-. cbn [calls mean converged wt2 yadj]. rewrite app_length. simpl length.
      split; [lia|]. split; [exact Hm'|]. split; [exact Hc'|]. intros _. exists nu'. split; [exact E|]. split; [reflexivity|eauto].
    + intros H. destruct (IH _ _ _ _ _ _ _ Hm' Hn' (working_ok _ Hm') Hc' H) as [A B].
      rewrite app_length in A. simpl length in A. split; [lia|exact B].
Qed.
Lemma irls_loop_total : succeeds n regress -> forall k mu nu w adj ll cs,
  all_numbers n (valid_mean fam) mu -> all_numbers n (fun _ => True) nu -> all_numbers n (Rlt 0) w ->
  exists r, irls_loop fam y regress llik tol k mu nu w adj ll cs = Ok r.
Proof.
  intros T; induction k as [|k IH]; intros mu nu w adj ll cs Hm Hn Hw; cbn [irls_loop]; [eauto|].
  set (adj' := adjusted fam y nu mu). assert (Ha : all_numbers n (fun _ => True) adj') by (apply adjusted_ok; assumption).
  destruct (T w adj' Hw Ha) as [nu' E]. rewrite E; cbn [obind]; cbv zeta.
  assert (Hn' := K w adj' nu' Hw Ha E). assert (Hm' := means_ok nu' Hn').
  destruct (xltb _ _); [eauto|]. apply IH; auto. apply working_ok; exact Hm'.
Qed.
Lemma start_mean : all_numbers n (valid_mean fam)
  (fun i => match fam with Poisson => XF (y i + 1 / 10) | Binomial => XF (1 / 2) end).
Proof.
  intros i L. assert (A := Y i L). destruct fam; simpl in *; eexists; (split; [reflexivity|lra]).
Qed.
Lemma start_nu : all_numbers n (fun _ => True)
  (fun i => match fam with Poisson => xln (match fam with Poisson => XF (y i + 1 / 10) | Binomial => XF (1 / 2) end) | Binomial => XF 0 end).
Proof.
  intros i L. assert (A := Y i L). destruct fam; [|eexists; split; [reflexivity|exact I]].
  eexists; split; [|exact I]. apply xval_xln; [reflexivity|lra].
Qed.
Lemma one_pos : all_numbers n (Rlt 0) (fun _ => XF 1).
Proof. intros i L; exists 1; split; [reflexivity|lra]. Qed.

Lemma C65_main : forall maxiter adj0 r, irls_run fam y regress llik tol maxiter adj0 = Ok r ->
  (length (calls r) <= maxiter)%nat /\ all_numbers n (valid_mean fam) (mean r) /\
  Forall (fun c => all_numbers n (Rlt 0) (fst c) /\ all_numbers n (fun _ => True) (snd c)) (calls r).
Proof.
  intros maxiter adj0 r H. unfold irls_run in H; cbv zeta in H.
  destruct (irls_loop_ok _ _ _ _ _ _ _ _ start_mean start_nu one_pos (Forall_nil _) H) as (A & B & C & _).
  split; [simpl in A; exact A|]. split; [exact B|exact C].
Qed.
Lemma C65_total_main : succeeds n regress -> forall maxiter adj0, exists r, irls_run fam y regress llik tol maxiter adj0 = Ok r.
Proof. intros T maxiter adj0; apply irls_loop_total; [exact T|apply start_mean|apply start_nu|apply one_pos]. Qed.
Lemma C90_main : forall maxiter adj0 r, irls_run fam y regress llik tol maxiter adj0 = Ok r -> converged r = true ->
  exists nu, regress (wt2 r) (yadj r) = Ok nu /\ forall i, mean r i = inverse_link fam (nu i).
Proof.
  intros maxiter adj0 r H Cv. unfold irls_run in H; cbv zeta in H.
  destruct (irls_loop_ok _ _ _ _ _ _ _ _ start_mean start_nu one_pos (Forall_nil _) H) as (_ & _ & _ & D).
  destruct (D Cv) as [nu [E [M _]]]. exists nu; split; [exact E|]. intros i; rewrite M; reflexivity.
Qed.
End Irls.

(** Witness for the limit being reached: two observations 0.9, covariate 1, 2, no intercept *)
Definition slope (w z : xvec) : xd :=
  xdiv (xadd (xmul (w 0%nat) (z 0%nat)) (xmul (XF 2) (xmul (w 1%nat) (z 1%nat))))
       (xadd (w 0%nat) (xmul (XF 4) (w 1%nat))).
Definition reg2 (w z : xvec) : outcome xvec := Ok (fun i => xmul (XF (INR (i + 1))) (slope w z)).
Lemma slope_val : forall w z w0 w1 z0 z1, xval (w 0%nat) = Some w0 -> xval (w 1%nat) = Some w1 ->
  xval (z 0%nat) = Some z0 -> xval (z 1%nat) = Some z1 -> 0 < w0 -> 0 < w1 ->
  xval (slope w z) = Some ((w0 * z0 + 2 * (w1 * z1)) / (w0 + 4 * w1)).
Proof.
  intros w z w0 w1 z0 z1 A B C D P Q. unfold slope. apply xval_xdiv.
  - apply xval_xadd; [apply xval_xmul; assumption|]. apply xval_xmul; [reflexivity|apply xval_xmul; assumption].
  - apply xval_xadd; [exact A|apply xval_xmul; [reflexivity|exact B]].
  - lra.
Qed.
Lemma reg2_ok : keeps_numbers 2 reg2 /\ succeeds 2 reg2.
Proof.
  assert (G : forall w z, all_numbers 2 (Rlt 0) w -> all_numbers 2 (fun _ => True) z -> exists s, xval (slope w z) = Some s).
  { intros w z Hw Hz. destruct (Hw 0%nat ltac:(lia)) as [w0 [A P]]. destruct (Hw 1%nat ltac:(lia)) as [w1 [B Q]].
    destruct (Hz 0%nat ltac:(lia)) as [z0 [C _]]. destruct (Hz 1%nat ltac:(lia)) as [z1 [D _]].
    eexists; eapply slope_val; eauto. }
  split.
  - intros w z nu Hw Hz E. destruct (G w z Hw Hz) as [s V]. intros i L.
    assert (Q : nu = fun i => xmul (XF (INR (i + 1))) (slope w z)) by (unfold reg2 in E; congruence). rewrite Q.
    eexists; split; [apply xval_xmul; [reflexivity|exact V]|exact I].
  - intros w z _ _. unfold reg2; eauto.
Qed.
Lemma C90_witness : exists n y regress llik tol maxiter adj0 r nu,
  valid_response Poisson n y /\ keeps_numbers n regress /\ succeeds n regress /\ (0 < n)%nat /\ (0 < maxiter)%nat /\
  irls_run Poisson y regress llik tol maxiter adj0 = Ok r /\ regress (wt2 r) (yadj r) = Ok nu /\
  xval (mean r 0%nat) <> xval (inverse_link Poisson (nu 0%nat)).
Proof.
  set (y := fun _ : nat => 9 / 10). set (llik := fun _ : xvec => XF (-1)).
  exists 2%nat, y, reg2, llik, (1 / 100000), 1%nat, (fun _ => XF 0).
  set (adj := adjusted Poisson y (fun i => xln (XF (y i + 1 / 10))) (fun i => XF (y i + 1 / 10))).
  assert (Va : forall i, xval (adj i) = Some (- (1 / 10))).
  { intros i. unfold adj, adjusted, y. replace (- (1 / 10)) with (ln 1 + (9 / 10 - (9 / 10 + 1 / 10)) / (9 / 10 + 1 / 10)).
    - apply xval_xadd.
      + apply xval_xln; [simpl; f_equal; field|lra].
      + apply xval_xdiv; [apply xval_xsub; reflexivity|reflexivity|lra].
    - rewrite ln_1; field. }
  set (nu1 := fun i : nat => xmul (XF (INR (i + 1))) (slope (fun _ => XF 1) adj)).
  set (mu1 := means Poisson nu1).
  assert (Vs : xval (slope (fun _ => XF 1) adj) = Some (- (3 / 50))).
  { rewrite (slope_val (fun _ => XF 1) adj 1 1 (- (1 / 10)) (- (1 / 10))); auto; try lra. f_equal; field. }
  assert (Vm : forall i, xval (mu1 i) = Some (exp (INR (i + 1) * - (3 / 50)))).
  { intros i. unfold mu1, means, nu1. apply xval_xexp. apply xval_xmul; [reflexivity|exact Vs]. }
  exists (Irls mu1 mu1 adj [(fun _ => XF 1, adj)] false), (fun i => xmul (XF (INR (i + 1))) (slope mu1 adj)).
  split; [intros i _; unfold y; simpl; lra|]. split; [apply reg2_ok|]. split; [apply reg2_ok|]. split; [lia|]. split; [lia|].
  split.
  { unfold irls_run; cbv zeta. cbn [irls_loop]. unfold reg2 at 1. cbn [obind]. unfold llik.
    assert (Q : xltb (xabs (xdiv (xsub (XF 0) (XF (-1))) (XF (-1)))) (XF (1 / 100000)) = false).
    { rewrite (xltb_val _ (XF (1 / 100000)) (Rabs ((0 - -1) / -1)) (1 / 100000)); [|apply xval_xabs, xval_xdiv; [apply xval_xsub; reflexivity|reflexivity|lra]|reflexivity].
      apply Rltb_false. replace ((0 - -1) / -1) with (-1) by field. rewrite Rabs_left; lra. }
    rewrite Q. reflexivity. }
  split; [reflexivity|]. cbn [mean inverse_link].
  assert (S2 := slope_val mu1 adj _ _ _ _ (Vm 0%nat) (Vm 1%nat) (Va 0%nat) (Va 1%nat) (exp_pos _) (exp_pos _)).
  rewrite (Vm 0%nat). rewrite (xval_xexp _ _ (xval_xmul (XF (INR (0 + 1))) _ 1 _ eq_refl S2)).
  cbn [plus INR]. replace ((1 + 1) * - (3 / 50)) with (- (3 / 50) + - (3 / 50)) by field.
  replace (1 * - (3 / 50)) with (- (3 / 50)) by field.
  rewrite exp_plus. set (t := exp (- (3 / 50))).
  assert (Pt : 0 < t) by apply exp_pos.
  assert (T1 : t < 1). { unfold t. rewrite <- exp_0. apply exp_increasing. lra. }
  intros H. injection H as H. apply (f_equal ln) in H. unfold t in H at 1. rewrite !ln_exp in H.
  assert (D : t + 4 * (t * t) <> 0) by nra.
  apply (f_equal (fun v => v * (t + 4 * (t * t)))) in H.
  replace (1 * ((t * - (1 / 10) + 2 * (t * t * - (1 / 10))) / (t + 4 * (t * t))) * (t + 4 * (t * t)))
    with (t * - (1 / 10) + 2 * (t * t * - (1 / 10))) in H by (field; exact D).
  nra.
Qed.

(** ** Global model *)
Section Glm.
Variables (fam : family) (n : nat) (y : nat -> R).
Variable wls : xvec -> xvec -> outcome xvec.
Lemma linkinv_ok : forall eta, all_numbers n (fun _ => True) eta -> all_numbers n (valid_mean fam) (linkinv fam n eta).
Proof.
  intros eta H. assert (G : exists es, numbers n eta es).
  { exists (fun i => match xval (eta i) with Some r => r | None => 0 end). intros i L. destruct (H i L) as [r [-> _]]. reflexivity. }
  destruct G as [es G]. unfold linkinv. intros i L. destruct fam; simpl.
  - exists (pinv (es i)). split; [apply poisson_clamp; assumption|apply pinv_pos].
  - exists (binv (es i)). split; [apply (binomial_linkinv_val n); assumption|apply binv_range].
Qed.
Lemma muEta_ok : forall eta, all_numbers n (fun _ => True) eta -> all_numbers n (Rlt 0) (muEta fam n eta).
Proof.
  intros eta H. assert (G : exists es, numbers n eta es).
  { exists (fun i => match xval (eta i) with Some r => r | None => 0 end). intros i L. destruct (H i L) as [r [-> _]]. reflexivity. }
  destruct G as [es G]. unfold muEta. intros i L. destruct fam.
  - exists (pinv (es i)). split; [rewrite poisson_muEta_eq; apply poisson_clamp; assumption|apply pinv_pos].
  - exists (bder (es i)). split; [apply (binomial_muEta_val n); assumption|apply bder_pos].
Qed.
Lemma variance_ok : forall mu, all_numbers n (valid_mean fam) mu -> all_numbers n (Rlt 0) (variance fam mu).
Proof.
  intros mu H i L. destruct (H i L) as [m [M V]]. unfold variance. destruct fam; simpl in V.
  - exists m; auto.
  - exists (m * (1 - m)). split; [|nra]. apply xval_xmul; [exact M|apply xval_xsub; [reflexivity|exact M]].
Qed.
Hypothesis K : keeps_numbers n (fun w z => wls z w).
Hypothesis Y : valid_response fam n y.
Lemma dev_ok : forall mu, all_numbers n (valid_mean fam) mu -> exists d, xval (dev_of fam n y mu) = Some d /\ 0 <= d.
Proof.
  intros mu H. assert (G : exists m, numbers n mu m /\ forall i, (i < n)%nat -> valid_mean fam (m i)).
  { exists (fun i => match xval (mu i) with Some r => r | None => 0 end). split; intros i L; destruct (H i L) as [r [-> V]]; auto. }
  destruct G as [m [G V]]. unfold dev_of, devResids.
  assert (O : numbers n ones (fun _ => 1)) by (intros i L; reflexivity).
  unfold valid_response in Y. destruct fam; simpl in V.
  - eexists; split; [apply xsum_val, poisson_dev_val; eauto|]. apply bigsum_nonneg. intros i L.
    assert (A := klz_nonneg (y i) (m i) (Y i L) (V i L)). lra.
  - eexists; split; [apply xsum_val, binomial_dev_val; eauto|]. apply bigsum_nonneg. intros i L.
    assert (A := proj1 (two_klz (y i) (m i) (Y i L) (V i L))). lra.
Qed.
Lemma glm_loop_ok : forall maxit epsilon k iter eta mu devold dev s, (iter + k = maxit)%nat ->
  all_numbers n (fun _ => True) eta -> all_numbers n (valid_mean fam) mu ->
  ((0 < iter)%nat -> exists d, xval dev = Some d /\ 0 <= d) -> (0 < maxit)%nat ->
  glm_loop fam n y wls epsilon k iter eta mu devold dev = Ok s ->
  (rounds s <= maxit)%nat /\ complete s = true /\ exists d, xval (gdev s) = Some d /\ 0 <= d.
Proof.
  intros maxit epsilon; induction k as [|k IH]; intros iter eta mu devold dev s E He Hm Hd PM; cbn [glm_loop].
  - intros H; injection H as <-. cbn [rounds complete gdev]. split; [lia|]. split; [reflexivity|]. apply Hd; lia.
  - set (z := fun i => xadd (xsub (eta i) (XF 0)) (xdiv (xsub (XF (y i)) (mu i)) (muEta fam n eta i))).
    set (w := fun i => xsqrt (xdiv (xmul (XF 1) (xmul (muEta fam n eta i) (muEta fam n eta i))) (variance fam mu i))).
    assert (Hz : all_numbers n (fun _ => True) z).
    { intros i L. destruct (He i L) as [e [Ee _]]. destruct (Hm i L) as [m [Em _]]. destruct (muEta_ok eta He i L) as [g [Eg Pg]].
      eexists; split; [|exact I]. apply xval_xadd; [apply xval_xsub; [exact Ee|reflexivity]|].
      apply xval_xdiv; [apply xval_xsub; [reflexivity|exact Em]|exact Eg|lra]. }
    assert (Hw : all_numbers n (Rlt 0) w).
    { intros i L. destruct (muEta_ok eta He i L) as [g [Eg Pg]]. destruct (variance_ok mu Hm i L) as [v [Ev Pv]].
      assert (P : 0 < 1 * (g * g) / v). { apply Rmult_lt_0_compat; [nra|apply Rinv_0_lt_compat; lra]. }
      exists (sqrt (1 * (g * g) / v)). split; [|apply sqrt_lt_R0; exact P].
      apply xval_xsqrt; [|lra]. apply xval_xdiv; [|exact Ev|lra]. apply xval_xmul; [reflexivity|apply xval_xmul; exact Eg]. }
    destruct (wls z w) as [eta'| |] eqn:Ew; cbn [obind]; try discriminate.
    assert (He' := K w z eta' Hw Hz Ew). cbv zeta.
    assert (He0 : all_numbers n (fun _ => True) (fun i => xadd (eta' i) (XF 0))).
    { intros i L. destruct (He' i L) as [e [Ee _]]. eexists; split; [apply xval_xadd; [exact Ee|reflexivity]|exact I]. }
    set (mu' := linkinv fam n (fun i => xadd (eta' i) (XF 0))).
    assert (Hm' := linkinv_ok _ He0). fold mu' in Hm'. destruct (dev_ok mu' Hm') as [d [Ed Pd]].
    assert (NI : xisinf (dev_of fam n y mu') = false) by (destruct (dev_of fam n y mu'); simpl in *; congruence).
    rewrite NI. destruct (xltb _ _).
    + intros H; injection H as <-. cbn [rounds complete gdev]. split; [lia|]. split; [reflexivity|eauto].
    + intros H. apply (IH (S iter) eta' mu' (dev_of fam n y mu') (dev_of fam n y mu') s); auto; [lia|eauto].
Qed.
Lemma glm_loop_total : succeeds n (fun w z => wls z w) -> forall epsilon k iter eta mu devold dev,
  all_numbers n (fun _ => True) eta -> all_numbers n (valid_mean fam) mu ->
  exists s, glm_loop fam n y wls epsilon k iter eta mu devold dev = Ok s.
Proof.
  intros T epsilon; induction k as [|k IH]; intros iter eta mu devold dev He Hm; cbn [glm_loop]; [eauto|].
  set (z := fun i => xadd (xsub (eta i) (XF 0)) (xdiv (xsub (XF (y i)) (mu i)) (muEta fam n eta i))).
  set (w := fun i => xsqrt (xdiv (xmul (XF 1) (xmul (muEta fam n eta i) (muEta fam n eta i))) (variance fam mu i))).
  assert (Hz : all_numbers n (fun _ => True) z).
  { intros i L. destruct (He i L) as [e [Ee _]]. destruct (Hm i L) as [m [Em _]]. destruct (muEta_ok eta He i L) as [g [Eg Pg]].
    eexists; split; [|exact I]. apply xval_xadd; [apply xval_xsub; [exact Ee|reflexivity]|].
    apply xval_xdiv; [apply xval_xsub; [reflexivity|exact Em]|exact Eg|lra]. }
  assert (Hw : all_numbers n (Rlt 0) w).
  { intros i L. destruct (muEta_ok eta He i L) as [g [Eg Pg]]. destruct (variance_ok mu Hm i L) as [v [Ev Pv]].
    assert (P : 0 < 1 * (g * g) / v). { apply Rmult_lt_0_compat; [nra|apply Rinv_0_lt_compat; lra]. }
    exists (sqrt (1 * (g * g) / v)). split; [|apply sqrt_lt_R0; exact P].
    apply xval_xsqrt; [|lra]. apply xval_xdiv; [|exact Ev|lra]. apply xval_xmul; [reflexivity|apply xval_xmul; exact Eg]. }
  destruct (T w z Hw Hz) as [eta' Ew]. rewrite Ew; cbn [obind]. assert (He' := K w z eta' Hw Hz Ew). cbv zeta.
  assert (He0 : all_numbers n (fun _ => True) (fun i => xadd (eta' i) (XF 0))).
  { intros i L. destruct (He' i L) as [e [Ee _]]. eexists; split; [apply xval_xadd; [exact Ee|reflexivity]|exact I]. }
  set (mu' := linkinv fam n (fun i => xadd (eta' i) (XF 0))).
  assert (Hm' := linkinv_ok _ He0). fold mu' in Hm'. destruct (dev_ok mu' Hm') as [d [Ed Pd]].
  assert (NI : xisinf (dev_of fam n y mu') = false) by (destruct (dev_of fam n y mu'); simpl in *; congruence).
  rewrite NI. destruct (xltb _ _); eauto.
Qed.
Lemma start_eta : all_numbers n (fun _ => True) (linkfun fam (muStart fam y)).
Proof.
  intros i L. assert (A := Y i L). unfold linkfun, muStart. destruct fam; simpl in A.
  - eexists; split; [|exact I]. apply xval_xln; [reflexivity|lra].
  - assert (V : xval (binomial_muStart y ones i) = Some ((1 * y i + 1 / 2) / (1 + 1))).
    { apply xval_xdiv; [|apply xval_xadd; reflexivity|lra]. apply xval_xadd; [apply xval_xmul; reflexivity|reflexivity]. }
    eexists; split; [|exact I]. apply xval_xln.
    + apply xval_xdiv; [exact V|apply xval_xsub; [reflexivity|exact V]|]. lra.
    + apply Rmult_lt_0_compat; [lra|apply Rinv_0_lt_compat; lra].
Qed.
Lemma zero_sum : forall f, (forall i, (i < n)%nat -> xval (f i) = Some 0) -> xval (xsum n f) = Some 0.
Proof. intros f H. rewrite (xsum_val n f (fun _ => 0)); [f_equal; apply bigsum_0|exact H]. Qed.
Lemma null_dev_ok : (0 < n)%nat -> exists d, xval (null_dev fam n y) = Some d /\ 0 <= d.
Proof.
  intros Ln. unfold null_dev.
  assert (PN : 0 < bigsum n (fun _ : nat => 1)). { rewrite bigsum_const. apply Rmult_lt_0_compat; [apply lt_0_INR; exact Ln|lra] || (replace 1 with 1 by reflexivity; assert (0 < INR n) by (apply lt_0_INR; exact Ln); lra). }
  set (c := bigsum n (fun i => 1 * y i)) in *. set (N := bigsum n (fun _ : nat => 1)) in *.
  assert (V : forall i : nat, xval ((fun _ : nat => xdiv (XF c) (XF N)) i) = Some (c / N)).
  { intros i. apply xval_xdiv; [reflexivity|reflexivity|lra]. }
  assert (Y0 : forall i, (i < n)%nat -> 0 <= 1 * y i).
  { intros i L. assert (A := Y i L). destruct fam; lra. }
  assert (C0 : 0 <= c) by (apply bigsum_nonneg; exact Y0).
  assert (Q0 : 0 <= c / N) by (apply Rmult_le_pos; [exact C0|apply Rlt_le, Rinv_0_lt_compat; exact PN]).
  destruct (Req_dec c 0) as [Z|NZ].
  - (* every response is 0 *)
    assert (AZ : forall i, (i < n)%nat -> y i = 0).
    { intros i L. assert (B := bigsum_zero n _ Y0 Z i L). cbv beta in B. lra. }
    assert (V0 : xval (xdiv (XF c) (XF N)) = Some 0).
    { rewrite (V 0%nat). f_equal. rewrite Z. field. lra. }
    exists 0. split; [|lra]. unfold dev_of. apply zero_sum. intros i L. unfold devResids. destruct fam.
    + unfold poisson_devResids; cbv zeta.
      assert (F : Rltb 0 (y i) = false) by (apply Rltb_false; rewrite AZ by exact L; lra).
      destruct (forallb _ _) eqn:FB.
      * rewrite forallb_forall in FB. specialize (FB i). rewrite in_seq in FB. assert (FB' := FB ltac:(lia)). rewrite FB' in F. discriminate.
      * rewrite F. refine (eq_trans (xval_xmul (XF 2) _ 2 (0 * 1) eq_refl (xval_xmul _ (XF 1) 0 1 V0 eq_refl)) _). f_equal; ring.
    + unfold binomial_devResids. rewrite (AZ i L).
      assert (W : xval (xsub (XF 1) (XF 0)) = Some (1 - 0)) by (apply xval_xsub; reflexivity).
      assert (W2 : xval (xsub (XF 1) (xdiv (XF c) (XF N))) = Some (1 - 0)) by (apply xval_xsub; [reflexivity|exact V0]).
      assert (W3 := y_log_y_val _ _ _ _ W W2 ltac:(lra) ltac:(lra)).
      assert (KK : klz (1 - 0) (1 - 0) = 0) by (apply klz_zero; lra).
      assert (W4 : xval (y_log_y (XF 0) (xdiv (XF c) (XF N))) = Some 0).
      { unfold y_log_y; cbn [xval]. rewrite (proj2 (Reqb_true 0 0) eq_refl). reflexivity. }
      assert (W5 : xval (xmul (XF 2) (XF 1)) = Some (2 * 1)) by (apply xval_xmul; reflexivity).
      refine (eq_trans (xval_xmul _ _ _ _ W5 (xval_xadd _ _ _ _ W4 W3)) _). f_equal. rewrite KK. ring.
  - assert (FC : fam = Poisson \/ fam = Binomial) by (destruct fam; auto). destruct FC as [EF|EF].
    + destruct (dev_ok (fun _ => xdiv (XF c) (XF N))) as [d D]; [|exists d; exact D].
      intros i L. exists (c / N). split; [exact (V i)|]. rewrite EF. simpl. apply Rmult_lt_0_compat; [lra|apply Rinv_0_lt_compat; lra].
    + assert (LE : c <= N).
      { apply bigsum_le. intros i L. assert (A := Y i L). rewrite EF in A. lra. }
      destruct (Req_dec c N) as [EN|NN].
      * (* every response is 1 *)
        assert (A1 : forall i, (i < n)%nat -> y i = 1).
        { intros i L. assert (B : bigsum n (fun i => 1 + -1 * y i) = 0).
          { rewrite bigsum_plus, bigsum_scal. unfold c in EN. rewrite (bigsum_ext n y (fun i => 1 * y i)) by (intros; ring). rewrite EN. unfold N. ring. }
          assert (B' := bigsum_zero n (fun i => 1 + -1 * y i)). cbv beta in B'.
          assert (BB : forall j, (j < n)%nat -> 0 <= 1 + -1 * y j). { intros j Lj. assert (A := Y j Lj). rewrite EF in A. lra. }
          specialize (B' BB B i L). lra. }
        assert (V1 : xval (xdiv (XF c) (XF N)) = Some 1).
        { rewrite (V 0%nat). f_equal. rewrite EN. field. lra. }
        exists 0. split; [|lra]. unfold dev_of. apply zero_sum. intros i L. unfold devResids. rewrite EF. unfold binomial_devResids. rewrite (A1 i L).
        assert (W3 := y_log_y_val (XF 1) _ 1 1 eq_refl V1 ltac:(lra) ltac:(lra)).
        assert (KK : klz 1 1 = 0) by (apply klz_zero; lra).
        assert (W : xval (xsub (XF 1) (XF 1)) = Some (1 - 1)) by (apply xval_xsub; reflexivity).
        assert (W4 : xval (y_log_y (xsub (XF 1) (XF 1)) (xsub (XF 1) (xdiv (XF c) (XF N)))) = Some 0).
        { unfold y_log_y. rewrite W. destruct (Reqb (1 - 1) 0) eqn:Q; [reflexivity|]. apply Reqb_false in Q. lra. }
        assert (W5 : xval (xmul (XF 2) (XF 1)) = Some (2 * 1)) by (apply xval_xmul; reflexivity).
        refine (eq_trans (xval_xmul _ _ _ _ W5 (xval_xadd _ _ _ _ W3 W4)) _). f_equal. rewrite KK. ring.
      * destruct (dev_ok (fun _ => xdiv (XF c) (XF N))) as [d D]; [|exists d; exact D].
        intros i L. exists (c / N). split; [exact (V i)|]. rewrite EF. simpl. split.
        -- apply Rmult_lt_0_compat; [lra|apply Rinv_0_lt_compat; lra].
        -- apply Rmult_lt_reg_r with N; [lra|]. unfold Rdiv. rewrite Rmult_assoc, Rinv_l by lra. lra.
Qed.
Lemma C91_main : forall maxit epsilon undef s, (0 < n)%nat -> (0 < maxit)%nat ->
  glm_fit fam n y wls maxit epsilon undef = Ok s ->
  (rounds s <= maxit)%nat /\ complete s = true /\ (exists d, xval (gdev s) = Some d /\ 0 <= d) /\
  exists d0, xval (null_dev fam n y) = Some d0 /\ 0 <= d0.
Proof.
  intros maxit epsilon undef s Ln PM H. unfold glm_fit in H; cbv zeta in H.
  destruct (glm_loop_ok maxit epsilon maxit 0 _ _ _ _ s eq_refl start_eta (linkinv_ok _ start_eta) ltac:(intros; lia) PM H) as (A & B & C).
  split; [exact A|]. split; [exact B|]. split; [exact C|]. apply null_dev_ok; exact Ln.
Qed.
Lemma C91_total_main : succeeds n (fun w z => wls z w) -> forall maxit epsilon undef, exists s,
  glm_fit fam n y wls maxit epsilon undef = Ok s.
Proof.
  intros T maxit epsilon undef. apply glm_loop_total; [exact T|apply start_eta|apply linkinv_ok, start_eta].
Qed.
End Glm.

(** ** AICc *)
Definition agg := GWRGeneralized_criterionAICOmp.
Lemma finished_app : forall t a b, finished_by t (a ++ b) = finished_by t a ++ finished_by t b.
Proof. intros; apply flat_map_app. Qed.
Section Aic.
Variables (n : nat) (diag : nat -> option R).
Definition dval (i : nat) : R := match diag i with Some s => s | None => 0 end.
Lemma thread_run : forall threads s, (forall i, In i (ends s) -> diag i <> None) ->
  (forall pre t i post, s = pre ++ End_ t i :: post -> In i (begins pre) /\ (t < threads)%nat) ->
  let st := fold_left (step unit (as_local diag) agg) s (p0 unit tt) in
  (forall i, In i (begins s) -> started st i = true) /\ dead st = false /\ flag st = true /\
  forall t, acc st t 0%nat = lsum (map dval (finished_by t s)).
Proof.
  intros threads s. induction s as [|e s IH] using rev_ind; intros NF Ord; cbv zeta.
  - simpl. repeat split; auto.
  - rewrite fold_left_app. simpl fold_left.
    assert (NF' : forall i, In i (ends s) -> diag i <> None).
    { intros i Hi; apply NF. rewrite ends_app; apply in_or_app; now left. }
    assert (Ord' : forall pre t i post, s = pre ++ End_ t i :: post -> In i (begins pre) /\ (t < threads)%nat).
    { intros pre t i post E. apply (Ord pre t i (post ++ [e])). rewrite E, <- app_assoc. reflexivity. }
    destruct (IH NF' Ord') as (A & D & Fl & C). clear IH. set (st := fold_left _ s _) in *. clearbody st.
    destruct e as [i|t i]; simpl.
    + split; [|split; [exact D|split; [exact Fl|]]].
      * intros j Hj. rewrite begins_app in Hj. apply in_app_or in Hj. unfold update. destruct (Nat.eqb_spec j i); [apply orb_true_r|].
        apply A. destruct Hj as [Hj|[Hj|[]]]; [exact Hj|congruence].
      * intros t. rewrite finished_app. cbn [finished_by flat_map app]. rewrite app_nil_r. apply C.
    + destruct (Ord s t i [] eq_refl) as [Bi Lt]. rewrite (A i Bi).
      assert (Ni : diag i <> None). { apply NF. rewrite ends_app; apply in_or_app; right; now left. }
      unfold as_local. unfold dval in *. destruct (diag i) as [v|] eqn:Ei; [|congruence]. simpl.
      split; [|split; [exact D|split; [exact Fl|]]].
      * intros j Hj. apply A. rewrite begins_app in Hj. simpl in Hj. rewrite app_nil_r in Hj. exact Hj.
      * intros u. rewrite finished_app. cbn [finished_by flat_map app]. unfold update. rewrite (Nat.eqb_sym t u). destruct (Nat.eqb_spec u t) as [->|Nu].
        -- rewrite map_app, lsum_app, C. unfold finished_by, lsum, sumloop. simpl. rewrite Ei. ring_simplify. reflexivity.
        -- rewrite app_nil_r. apply C.
Qed.
End Aic.
Lemma lsum_ext : forall (f g : nat -> R) l, (forall i, In i l -> f i = g i) -> lsum (map f l) = lsum (map g l).
Proof. intros f g l H. rewrite <- !sumloop_lsum. now apply sumloop_ext. Qed.
Lemma finished_in : forall t i s, In i (finished_by t s) -> In i (ends s).
Proof.
  intros t i s. unfold finished_by, ends. rewrite !in_flat_map. intros (e & He & Hi). exists e; split; [exact He|].
  destruct e; [exact Hi|]. destruct (Nat.eqb _ _); [exact Hi|destruct Hi].
Qed.
Lemma C66_values_main : forall n llik diag s threads sched, (forall i, (i < n)%nat -> diag i = Some (s i)) ->
  schedule threads 0 n sched ->
  aic_serial n llik diag = Ok (ggwr_aicc n llik (bigsum n s)) /\
  aic_omp n llik diag threads sched = Value (ggwr_aicc n llik (lsum (map s (finished_by 0 sched)))).
Proof.
  intros n llik diag s threads sched H (NB & IB & NE & IE & Ord). split.
  - unfold aic_serial.
    destruct (serial_from_ok unit tt (as_local diag) (seq 0 (n - 0)) (fun _ => tt) (fun _ => 0)) as (b & a & E & _ & _ & A).
    + intros i Hi. apply in_seq in Hi. unfold as_local. rewrite H by lia. discriminate.
    + apply seq_NoDup.
    + unfold serial_run. rewrite E. cbn [obind snd]. do 2 f_equal. rewrite A. rewrite Nat.sub_0_r, bigsum_seq, sumloop_lsum.
      rewrite Rplus_0_l. apply lsum_ext. intros i Hi. apply in_seq in Hi. unfold statof, as_local. rewrite H by lia. reflexivity.
  - unfold aic_omp, omp_run. fold agg.
    destruct (thread_run diag threads sched) as (_ & D & Fl & C).
    + intros i Hi. apply IE in Hi. rewrite H by lia. discriminate.
    + exact Ord.
    + rewrite D, Fl. unfold gather, agg. fold agg. rewrite C. do 2 f_equal. apply lsum_ext. intros i Hi. apply finished_in, IE in Hi.
      unfold dval. rewrite H by lia. reflexivity.
Qed.
Lemma one_thread : forall sched, (forall pre t i post, sched = pre ++ End_ t i :: post -> (t < 1)%nat) -> finished_by 0 sched = ends sched.
Proof.
  induction sched as [|e s IH]; intros H; [reflexivity|]. simpl.
  assert (IH' : finished_by 0 s = ends s).
  { apply IH. intros pre t i post E. apply (H (e :: pre) t i post). rewrite E; reflexivity. }
  unfold finished_by, ends in IH' |- *. simpl. rewrite IH'. destruct e as [i|t i]; [reflexivity|].
  assert (T : (t < 1)%nat) by (apply (H [] t i s); reflexivity). assert (t = 0)%nat as -> by lia. reflexivity.
Qed.
Lemma ends_perm : forall threads n sched, schedule threads 0 n sched -> Permutation (ends sched) (seq 0 n).
Proof.
  intros threads n sched (_ & _ & NE & IE & _). apply NoDup_Permutation; [exact NE|apply seq_NoDup|].
  intros i. rewrite IE, in_seq. lia.
Qed.
Lemma C66_main : forall n llik diag sched, (forall i, (i < n)%nat -> diag i <> None) -> schedule 1 0 n sched ->
  exists v, aic_serial n llik diag = Ok v /\ aic_omp n llik diag 1 sched = Value v.
Proof.
  intros n llik diag sched H Sc.
  assert (H' : forall i, (i < n)%nat -> diag i = Some (dval diag i)).
  { intros i L. unfold dval. specialize (H i L). destruct (diag i); congruence. }
  destruct (C66_values_main n llik diag _ 1 sched H' Sc) as [A B].
  eexists; split; [exact A|]. rewrite B. do 2 f_equal.
  rewrite one_thread by (intros pre t i post E; apply (proj2 (proj2 (proj2 (proj2 Sc))) pre t i post E)).
  rewrite bigsum_seq, sumloop_lsum. apply lsum_perm, Permutation_map, (ends_perm 1), Sc.
Qed.
Lemma C66_failure_main : forall n llik diag threads sched, (exists i, (i < n)%nat /\ diag i = None) -> schedule threads 0 n sched ->
  aic_serial n llik diag = Throw /\ aic_omp n llik diag threads sched = Died.
Proof.
  intros n llik diag threads sched (i & L & E) Sc.
  assert (SF : some_fails (as_local diag) 0 n). { exists i. split; [lia|]. unfold fails, as_local. rewrite E. reflexivity. }
  split.
  - unfold aic_serial. rewrite (proj2 (serial_throw_iff unit tt (as_local diag) 0 n) SF). reflexivity.
  - unfold aic_omp. fold agg. rewrite (proj2 (escape_iff unit tt (as_local diag) threads 0 n agg sched eq_refl Sc) SF). reflexivity.
Qed.
Lemma C66_witness : exists n llik diag sched v v',
  schedule 2 0 n sched /\ aic_serial n llik diag = Ok v /\ aic_omp n llik diag 2 sched = Value v' /\ xval v <> xval v'.
Proof.
  destruct (C66_values_main 2 0 (fun _ => Some (1 / 4)) (fun _ => 1 / 4) 2 overlap ltac:(reflexivity) overlap_schedule) as [A B].
  do 6 eexists. split; [exact overlap_schedule|]. split; [exact A|]. split; [exact B|].
  unfold ggwr_aicc. cbn [bigsum finished_by overlap flat_map Nat.eqb app map lsum fold_right].
  rewrite (xval_xadd _ _ (-2 * 0 + 2 * (0 + 1 / 4 + 1 / 4)) (2 * (0 + 1 / 4 + 1 / 4) * (0 + 1 / 4 + 1 / 4 + 1) / (INR 2 - (0 + 1 / 4 + 1 / 4) - 1))); [|reflexivity|].
  2: { apply xval_xdiv; [reflexivity|reflexivity|simpl; lra]. }
  rewrite (xval_xadd _ _ (-2 * 0 + 2 * (1 / 4 + 0)) (2 * (1 / 4 + 0) * (1 / 4 + 0 + 1) / (INR 2 - (1 / 4 + 0) - 1))); [|reflexivity|].
  2: { apply xval_xdiv; [reflexivity|reflexivity|simpl; lra]. }
  replace (INR 2) with 2 by (simpl; lra).
  replace (-2 * 0 + 2 * (0 + 1 / 4 + 1 / 4) + 2 * (0 + 1 / 4 + 1 / 4) * (0 + 1 / 4 + 1 / 4 + 1) / (2 - (0 + 1 / 4 + 1 / 4) - 1)) with 4 by field.
  replace (-2 * 0 + 2 * (1 / 4 + 0) + 2 * (1 / 4 + 0) * (1 / 4 + 0 + 1) / (2 - (1 / 4 + 0) - 1)) with (4 / 3) by field.
  intros E; injection E; lra.
Qed.
