(** Values computed by the families and scoring loops. *)
From Coq Require Import Reals Bool List Arith Lia Lra Psatz.
From Verif Require Import Outcome XReal XRealFacts Sums DiagModel DiagProofs OmpModel OmpSpec OmpProofs GlmModel GlmSpec GlmProofs GlmProofs2.
Import ListNotations.
Local Open Scope R_scope.

Lemma klz_ylogy : forall y m, klz y m = ylogy y m - (y - m).
Proof.
  intros y m; unfold klz, ylogy, Reqb. destruct (Req_EM_T y 0) as [->|N]; ring.
Qed.
Lemma C64_values_main : forall fam n y mu m, numbers n mu m -> valid_response fam n y ->
  (forall i, (i < n)%nat -> valid_mean fam (m i)) ->
  numbers n (devResids fam n y mu) (fun i => unit_deviance fam (y i) (m i)).
Proof.
  intros fam n y mu m H Y V i L. unfold devResids, valid_response in *.
  assert (O : numbers n ones (fun _ => 1)) by (intros k Lk; reflexivity).
  destruct fam; simpl in V; unfold unit_deviance.
  - rewrite (poisson_dev_val n y mu ones m _ H O Y V i L). f_equal. rewrite klz_ylogy. ring.
  - rewrite (binomial_dev_val n y mu ones m _ H O Y V i L). f_equal. rewrite !klz_ylogy. ring.
Qed.
Lemma C64_weighted_main : forall n y mu w m ws, numbers n mu m -> numbers n w ws ->
  ((forall i, (i < n)%nat -> 0 <= y i) -> (forall i, (i < n)%nat -> 0 < m i) ->
     numbers n (poisson_devResids n y mu w) (fun i => ws i * unit_deviance Poisson (y i) (m i))) /\
  ((forall i, (i < n)%nat -> 0 <= y i <= 1) -> (forall i, (i < n)%nat -> 0 < m i < 1) ->
     numbers n (binomial_devResids y mu w) (fun i => ws i * unit_deviance Binomial (y i) (m i))).
Proof.
  intros n y mu w m ws H W; split; intros Y V i L; unfold unit_deviance.
  - rewrite (poisson_dev_val n y mu w m _ H W Y V i L). f_equal. rewrite klz_ylogy. ring.
  - rewrite (binomial_dev_val n y mu w m _ H W Y V i L). f_equal. rewrite !klz_ylogy. ring.
Qed.
Lemma C64_total_main : forall n y mu m, numbers n mu m ->
  ((forall i, (i < n)%nat -> 0 <= y i) -> (forall i, (i < n)%nat -> 0 < m i) ->
     xval (gw_dev n y mu) = Some (bigsum n (fun i => unit_deviance Poisson (y i) (m i)))) /\
  ((forall i, (i < n)%nat -> y i = 0 \/ y i = 1) -> (forall i, (i < n)%nat -> 0 < m i < 1) ->
     xval (gw_dev_binomial n y mu) = Some (bigsum n (fun i => unit_deviance Binomial (y i) (m i)))).
Proof.
  intros n y mu m H; split; intros Y V.
  - rewrite (gw_dev_val n y mu m H Y V). f_equal. apply bigsum_ext. intros i L. unfold unit_deviance. rewrite klz_ylogy. ring.
  - rewrite (gw_dev_binomial_val n y mu m H Y V). f_equal. apply bigsum_ext. intros i L. unfold unit_deviance. rewrite !klz_ylogy. ring.
Qed.

(** ** Local scoring *)
Definition vals (v : xvec) : nat -> R := fun i => match xval (v i) with Some r => r | None => 0 end.
Lemma vals_ok : forall n P v, all_numbers n P v -> numbers n v (vals v) /\ forall i, (i < n)%nat -> P (vals v i).
Proof. intros n P v H; split; intros i L; unfold vals; destruct (H i L) as [r [-> Pr]]; auto. Qed.

Section Irls.
Variables (fam : family) (n : nat) (y : nat -> R).
Variable regress : xvec -> xvec -> outcome xvec.
Variable llik : xvec -> xd.
Variable tol : R.
Definition change (l l' : xd) : xd := xabs (xdiv (xsub l l') l').
Definition arg (w : xvec) (mv nv : nat -> xvec) (k : nat) : xvec * xvec :=
  (match k with O => w | S _ => working fam (mv k) end, adjusted fam y (nv k) (mv k)).
Definition lik (l : xd) (mv : nat -> xvec) (k : nat) : xd := match k with O => l | S _ => llik (mv k) end.

Lemma irls_trace : forall k mu nu w adj ll cs r,
  irls_loop fam y regress llik tol k mu nu w adj ll cs = Ok r ->
  exists (mv nv : nat -> xvec) L, mv 0%nat = mu /\ nv 0%nat = nu /\ (L <= k)%nat /\
    calls r = cs ++ map (arg w mv nv) (seq 0 L) /\ mean r = mv L /\
    (forall j, (j < L)%nat -> regress (fst (arg w mv nv j)) (snd (arg w mv nv j)) = Ok (nv (S j)) /\ mv (S j) = means fam (nv (S j))) /\
    (forall j, (S j < L)%nat -> xltb (change (lik ll mv j) (lik ll mv (S j))) (XF tol) = false) /\
    (converged r = true -> exists j, L = S j /\ xltb (change (lik ll mv j) (lik ll mv (S j))) (XF tol) = true) /\
    (converged r = false -> L = k /\ forall j, (j < L)%nat -> xltb (change (lik ll mv j) (lik ll mv (S j))) (XF tol) = false).
Proof.
  induction k as [|k IH]; intros mu nu w adj ll cs r; cbn [irls_loop].
  - intros H; injection H as <-. exists (fun _ => mu), (fun _ => nu), 0%nat. cbn [calls mean converged map seq].
    repeat split; try reflexivity; try discriminate; intros; try lia. rewrite app_nil_r; reflexivity.
  - set (adj' := adjusted fam y nu mu). destruct (regress w adj') as [nu'| |] eqn:E; cbn [obind]; try discriminate.
    cbv zeta. destruct (xltb (xabs (xdiv (xsub ll (llik (means fam nu'))) (llik (means fam nu')))) (XF tol)) eqn:T.
    + intros H; injection H as <-. exists (fun j => match j with O => mu | S _ => means fam nu' end), (fun j => match j with O => nu | S _ => nu' end), 1%nat.
      cbn [calls mean converged map seq]. split; [reflexivity|split; [reflexivity|split; [lia|split; [reflexivity|split; [reflexivity|split; [|split; [|split]]]]]]].
      * intros j Lj. destruct j; [split; [exact E|reflexivity]|lia].
      * intros j Lj; lia.
      * intros _; exists 0%nat; split; [reflexivity|exact T].
      * discriminate.
    + intros H. destruct (IH _ _ _ _ _ _ _ H) as (mv & nv & L & M0 & N0 & LL & C & M & S & T1 & T2 & T3).
      exists (fun j => match j with O => mu | S j' => mv j' end), (fun j => match j with O => nu | S j' => nv j' end), (Datatypes.S L).
      assert (A : forall j, arg w (fun j => match j with O => mu | S j' => mv j' end) (fun j => match j with O => nu | S j' => nv j' end) (Datatypes.S j)
                  = arg (working fam (means fam nu')) mv nv j).
      { intros j; unfold arg. destruct j; [rewrite M0|]; reflexivity. }
      assert (B : forall j, lik ll (fun j => match j with O => mu | S j' => mv j' end) (Datatypes.S j) = lik (llik (means fam nu')) mv j).
      { intros j; unfold lik. destruct j; [rewrite M0|]; reflexivity. }
      assert (B0 : lik ll (fun j => match j with O => mu | S j' => mv j' end) 0 = ll) by reflexivity.
      split; [reflexivity|split; [reflexivity|split; [lia|split; [|split; [exact M|split; [|split; [|split]]]]]]].
      * rewrite C, <- app_assoc. f_equal. cbn [seq map app]. f_equal. rewrite <- seq_shift, map_map. apply map_ext. intros j; rewrite A; reflexivity.
      * intros j Lj. destruct j as [|j]; [cbn; rewrite M0, N0; split; [exact E|reflexivity]|]. rewrite A. apply S; lia.
      * intros j Lj. destruct j as [|j]; [|rewrite !B; apply T1; lia].
        rewrite B0, B. unfold lik. exact T.
      * intros Cv. destruct (T2 Cv) as [j [-> Q]]. exists (Datatypes.S j). split; [reflexivity|]. rewrite !B. exact Q.
      * intros Cv. destruct (T3 Cv) as [-> Q]. split; [reflexivity|]. intros j Lj.
        destruct j as [|j]; [rewrite B0, B; exact T|rewrite !B; apply Q; lia].
Qed.

Lemma adjusted_val : forall nu mu nus ms, numbers n nu nus -> numbers n mu ms -> (forall i, (i < n)%nat -> valid_mean fam (ms i)) ->
  numbers n (adjusted fam y nu mu) (fun i => nus i + (y i - ms i) / variance_of fam (ms i)).
Proof.
  intros nu mu nus ms Hn Hm V i L. assert (Vi := V i L). unfold adjusted, variance_of in *.
  assert (D : xval (xsub (XF (y i)) (mu i)) = Some (y i - ms i)) by (apply xval_xsub; [reflexivity|exact (Hm i L)]).
  destruct fam; simpl in Vi; apply xval_xadd; try exact (Hn i L).
  - apply xval_xdiv; [exact D|exact (Hm i L)|lra].
  - apply xval_xdiv; [exact D| |nra]. apply xval_xmul; [exact (Hm i L)|]. apply xval_xsub; [reflexivity|exact (Hm i L)].
Qed.
Lemma means_val : forall nu nus, numbers n nu nus -> numbers n (means fam nu) (fun i => mean_of fam (nus i)).
Proof.
  intros nu nus H i L. assert (P := exp_pos (nus i)). unfold means, mean_of. assert (E := xval_xexp _ _ (H i L)).
  destruct fam; [exact E|]. apply xval_xdiv; [exact E| |lra]. apply xval_xadd; [reflexivity|exact E].
Qed.
Lemma mean_of_valid : forall e, valid_mean fam (mean_of fam e).
Proof.
  intros e. unfold valid_mean, mean_of. destruct fam; [apply exp_pos|]. apply binv_range.
Qed.
Lemma working_val : forall mu ms, numbers n mu ms -> numbers n (working fam mu) (fun i => variance_of fam (ms i)).
Proof.
  intros mu ms H i L. unfold working, variance_of. destruct fam; [exact (H i L)|].
  replace (ms i * (1 - ms i)) with (1 * ms i * (1 - ms i)) by ring.
  apply xval_xmul; [apply xval_xmul; [reflexivity|exact (H i L)]|apply xval_xsub; [reflexivity|exact (H i L)]].
Qed.
Lemma variance_pos : forall m, valid_mean fam m -> 0 < variance_of fam m.
Proof. intros m V; unfold variance_of; destruct fam; simpl in V; nra. Qed.

Hypothesis K : keeps_numbers n regress.
Hypothesis Y : valid_response fam n y.

(* each round is one step of Fisher scoring *)
Lemma C65_fisher_main : forall maxiter adj0 r, irls_run fam y regress llik tol maxiter adj0 = Ok r ->
  exists (mv : nat -> nat -> xd) (ms nus : nat -> nat -> R),
    (forall k, (k <= length (calls r))%nat -> numbers n (mv k) (ms k)) /\
    (forall i, (i < n)%nat -> match fam with
       | Poisson => ms 0%nat i = y i + 1 / 10 /\ nus 0%nat i = ln (y i + 1 / 10)
       | Binomial => ms 0%nat i = 1 / 2 /\ nus 0%nat i = 0 end) /\
    (forall k w z, nth_error (calls r) k = Some (w, z) ->
       numbers n w (fun i => match k with O => 1 | S _ => variance_of fam (ms k i) end) /\
       numbers n z (fun i => nus k i + (y i - ms k i) / variance_of fam (ms k i)) /\
       (exists nu, regress w z = Ok nu /\ numbers n nu (nus (S k))) /\
       forall i, (i < n)%nat -> ms (S k) i = mean_of fam (nus (S k) i)) /\
    mean r = mv (length (calls r)) /\
    (let ll k := match k with O => XF 0 | S _ => llik (mv k) end in
     let small k := xltb (xabs (xdiv (xsub (ll k) (ll (S k))) (ll (S k)))) (XF tol) in
     (forall k, (S k < length (calls r))%nat -> small k = false) /\
     (converged r = true -> small (length (calls r) - 1)%nat = true) /\
     (converged r = false -> length (calls r) = maxiter)).
Proof.
  intros maxiter adj0 r H. unfold irls_run in H; cbv zeta in H.
  destruct (irls_trace _ _ _ _ _ _ _ _ H) as (mv & nv & L & M0 & N0 & LL & C & M & S & T1 & T2 & T3).
  cbn [app] in C.
  assert (LC : length (calls r) = L) by (rewrite C, map_length, seq_length; reflexivity).
  assert (G : forall k, (k <= L)%nat -> all_numbers n (valid_mean fam) (mv k) /\ all_numbers n (fun _ => True) (nv k)).
  { induction k as [|k IH]; intros Lk.
    - rewrite M0, N0. split; [apply (start_mean fam n y Y)|apply (start_nu fam n y Y)].
    - destruct (IH ltac:(lia)) as [A B]. destruct (S k ltac:(lia)) as [E1 E2].
      assert (NN : all_numbers n (fun _ => True) (nv (Datatypes.S k))).
      { apply (K _ _ _) in E1; [exact E1| |].
        - unfold arg; cbn [fst]. destruct k; [exact (one_pos n)|]. eapply working_ok; eauto.
        - unfold arg; cbn [snd]. eapply adjusted_ok; eauto. }
      split; [rewrite E2; eapply means_ok; eauto|exact NN]. }
  exists mv, (fun k => vals (mv k)), (fun k => vals (nv k)).
  rewrite LC. split; [|split; [|split; [|split]]].
  - intros k Lk. apply (vals_ok n _ _ (proj1 (G k Lk))).
  - intros i Li. rewrite M0, N0. assert (A := Y i Li). unfold vals.
    destruct fam; [|split; reflexivity]. split; [reflexivity|].
    rewrite (xval_xln (XF (y i + 1 / 10)) (y i + 1 / 10) eq_refl ltac:(lra)). reflexivity.
  - intros k w z Hk. rewrite C in Hk.
    assert (Lk : (k < L)%nat). { assert (Q : nth_error (map (arg (fun _ => XF 1) mv nv) (seq 0 L)) k <> None) by congruence.
      apply nth_error_Some in Q. rewrite map_length, seq_length in Q; exact Q. }
    assert (Hk' : arg (fun _ => XF 1) mv nv k = (w, z)).
    { assert (Q : nth_error (seq 0 L) k = Some k).
      { rewrite (nth_error_nth' (seq 0 L) 0%nat) by (rewrite seq_length; lia). rewrite seq_nth by lia. reflexivity. }
      assert (Q' := map_nth_error (arg (fun _ => XF 1) mv nv) k (seq 0 L) Q). rewrite Q' in Hk. exact (f_equal (fun o => match o with Some v => v | None => (w, z) end) Hk). }
    unfold arg in Hk'. injection Hk' as <- <-.
    destruct (G k ltac:(lia)) as [A B]. destruct (vals_ok n _ _ A) as [A1 A2]. destruct (vals_ok n _ _ B) as [B1 _].
    destruct (G (Datatypes.S k) ltac:(lia)) as [A' B']. destruct (vals_ok n _ _ B') as [B1' _].
    destruct (S k Lk) as [E1 E2]. unfold arg in E1; cbn [fst snd] in E1.
    split; [|split; [|split]].
    + destruct k; [intros i Li; reflexivity|]. apply (working_val _ _ A1).
    + apply adjusted_val; assumption.
    + exists (nv (Datatypes.S k)). split; [exact E1|exact B1'].
    + intros i Li. unfold vals at 1. rewrite E2, (means_val _ _ B1' i Li). reflexivity.
  - exact M.
  - cbv zeta. split; [exact T1|]. split.
    + intros Cv. destruct (T2 Cv) as [j [E Q]]. rewrite E. replace (Datatypes.S j - 1)%nat with j by lia. exact Q.
    + intros Cv. apply T3; exact Cv.
Qed.
End Irls.

(** ** AICc *)
Lemma C66_formula_main : forall n llik trs, INR n - trs - 1 <> 0 ->
  xval (ggwr_aicc n llik trs) = Some (- 2 * llik + 2 * trs + 2 * trs * (trs + 1) / (INR n - trs - 1)).
Proof.
  intros n llik trs N. unfold ggwr_aicc. apply xval_xadd; [reflexivity|]. apply xval_xdiv; [reflexivity|reflexivity|exact N].
Qed.

(** ** Global model *)
Section Glm.
Variables (fam : family) (n : nat) (y : nat -> R).
Variable wls : xvec -> xvec -> outcome xvec.
Hypothesis K : keeps_numbers n (fun w z => wls z w).
Hypothesis Y : valid_response fam n y.
Definition slope_of (e : R) : R := match fam with Poisson => Rmax (exp e) (2220446 / 10 ^ 22) | Binomial => exp e / (1 + exp e) ^ 2 end.
Definition Dev (m : nat -> R) : R := bigsum n (fun i => unit_deviance fam (y i) (m i)).
Lemma bounded_valid : forall e, valid_mean fam (bounded_mean fam e).
Proof. intros e; unfold valid_mean, bounded_mean; destruct fam; [apply (pinv_pos e)|apply (binv_range e)]. Qed.
Lemma linkinv_val : forall eta es, numbers n eta es -> numbers n (linkinv fam n eta) (fun i => bounded_mean fam (es i)).
Proof.
  intros eta es H i L. unfold linkinv, bounded_mean. destruct fam.
  - apply (poisson_clamp n eta es H i L).
  - apply (binomial_linkinv_val n eta es H i L).
Qed.
Lemma slope_pos : forall e, 0 < slope_of e.
Proof.
  intros e; unfold slope_of; destruct fam; [apply (pinv_pos e)|].
  assert (P := bder_pos e). unfold bder in P. replace ((1 + exp e) ^ 2) with ((1 + exp e) * (1 + exp e)) by ring. exact P.
Qed.
Lemma muEta_val : forall eta es, numbers n eta es -> numbers n (muEta fam n eta) (fun i => slope_of (es i)).
Proof.
  intros eta es H i L. unfold muEta, slope_of. destruct fam.
  - rewrite poisson_muEta_eq. apply (poisson_clamp n eta es H i L).
  - rewrite (binomial_muEta_val n eta es H i L). f_equal. unfold bder. replace ((1 + exp (es i)) ^ 2) with ((1 + exp (es i)) * (1 + exp (es i))) by ring. reflexivity.
Qed.
Lemma variance_val : forall mu ms, numbers n mu ms -> numbers n (variance fam mu) (fun i => variance_of fam (ms i)).
Proof.
  intros mu ms H i L. unfold variance, variance_of. destruct fam; [exact (H i L)|].
  apply xval_xmul; [exact (H i L)|apply xval_xsub; [reflexivity|exact (H i L)]].
Qed.
Lemma dev_val : forall mu ms, numbers n mu ms -> (forall i, (i < n)%nat -> valid_mean fam (ms i)) -> xval (dev_of fam n y mu) = Some (Dev ms).
Proof. intros mu ms H V. apply xsum_val. apply C64_values_main; assumption. Qed.
Lemma numbers_all : forall (P : R -> Prop) v r, numbers n v r -> (forall i, (i < n)%nat -> P (r i)) -> all_numbers n P v.
Proof. intros P v r H Q i L. exists (r i). split; [exact (H i L)|apply Q; exact L]. Qed.

Definition step (e e' : nat -> R) : Prop := exists z w v,
  numbers n z (fun i => e i + (y i - bounded_mean fam (e i)) / slope_of (e i)) /\
  numbers n w (fun i => sqrt (slope_of (e i) ^ 2 / variance_of fam (bounded_mean fam (e i)))) /\
  wls z w = Ok v /\ numbers n v e'.
Definition DevE (e : nat -> R) : R := Dev (fun i => bounded_mean fam (e i)).
Definition smallE (epsilon : R) (e e' : nat -> R) : Prop := Rabs (DevE e' - DevE e) / (1 / 10 + Rabs (DevE e')) < epsilon.
Lemma glm_trace : forall epsilon k iter eta mu es devold dev s, numbers n eta es ->
  numbers n mu (fun i => bounded_mean fam (es i)) -> xval devold = Some (DevE es) ->
  glm_loop fam n y wls epsilon k iter eta mu devold dev = Ok s ->
  exists (ets : nat -> nat -> R) L, ets 0%nat = es /\ (L <= k)%nat /\ rounds s = (iter + L)%nat /\
    (forall j, (j < L)%nat -> step (ets j) (ets (S j))) /\
    (L = 0%nat -> gdev s = dev) /\ ((0 < L)%nat -> xval (gdev s) = Some (DevE (ets L))) /\
    (forall j, (S j < L)%nat -> ~ smallE epsilon (ets j) (ets (S j))) /\
    ((L < k)%nat -> exists j, L = S j /\ smallE epsilon (ets j) (ets (S j))).
Proof.
  intros epsilon; induction k as [|k IH]; intros iter eta mu es devold dev s He Hm Hd; cbn [glm_loop].
  - intros H; injection H as <-. exists (fun _ => es), 0%nat. cbn [rounds gdev].
    split; [reflexivity|split; [lia|split; [lia|split; [intros; lia|split; [reflexivity|split; [intros; lia|split; [intros; lia|intros; lia]]]]]]].
  - set (z := fun i => xadd (xsub (eta i) (XF 0)) (xdiv (xsub (XF (y i)) (mu i)) (muEta fam n eta i))).
    set (w := fun i => xsqrt (xdiv (xmul (XF 1) (xmul (muEta fam n eta i) (muEta fam n eta i))) (variance fam mu i))).
    assert (Hz : numbers n z (fun i => es i + (y i - bounded_mean fam (es i)) / slope_of (es i))).
    { intros i L. assert (P := slope_pos (es i)). replace (es i + (y i - bounded_mean fam (es i)) / slope_of (es i))
        with ((es i - 0) + (y i - bounded_mean fam (es i)) / slope_of (es i)) by ring.
      apply xval_xadd; [apply xval_xsub; [exact (He i L)|reflexivity]|].
      apply xval_xdiv; [apply xval_xsub; [reflexivity|exact (Hm i L)]|exact (muEta_val _ _ He i L)|lra]. }
    assert (PW : forall e, 0 < slope_of e ^ 2 / variance_of fam (bounded_mean fam e)).
    { intros e. assert (P := slope_pos e). assert (Q := variance_pos fam _ (bounded_valid e)). apply Rmult_lt_0_compat; [nra|apply Rinv_0_lt_compat; exact Q]. }
    assert (Hw : numbers n w (fun i => sqrt (slope_of (es i) ^ 2 / variance_of fam (bounded_mean fam (es i))))).
    { intros i L. assert (Q := variance_pos fam _ (bounded_valid (es i))). apply xval_xsqrt; [|apply Rlt_le, PW].
      replace (slope_of (es i) ^ 2) with (1 * (slope_of (es i) * slope_of (es i))) by ring.
      apply xval_xdiv; [|exact (variance_val _ _ Hm i L)|lra]. apply xval_xmul; [reflexivity|].
      apply xval_xmul; exact (muEta_val _ _ He i L). }
    destruct (wls z w) as [eta'| |] eqn:Ew; cbn [obind]; try discriminate.
    assert (He' := K w z eta' (numbers_all _ _ _ Hw (fun i _ => sqrt_lt_R0 _ (PW (es i)))) (numbers_all _ _ _ Hz (fun _ _ => I)) Ew).
    cbv zeta. destruct (vals_ok n _ _ He') as [He1 _].
    assert (He0 : numbers n (fun i => xadd (eta' i) (XF 0)) (vals eta')).
    { intros i L. replace (vals eta' i) with (vals eta' i + 0) by ring. apply xval_xadd; [exact (He1 i L)|reflexivity]. }
    set (mu' := linkinv fam n (fun i => xadd (eta' i) (XF 0))).
    assert (Hm' := linkinv_val _ _ He0). fold mu' in Hm'.
    assert (Ed := dev_val _ _ Hm' (fun i _ => bounded_valid _)). fold (DevE (vals eta')) in Ed.
    assert (NI : xisinf (dev_of fam n y mu') = false) by (destruct (dev_of fam n y mu'); simpl in *; congruence).
    rewrite NI.
    assert (T : xltb (xdiv (xabs (xsub (dev_of fam n y mu') devold)) (xadd (XF (1 / 10)) (xabs (dev_of fam n y mu')))) (XF epsilon)
              = Rltb (Rabs (DevE (vals eta') - DevE es) / (1 / 10 + Rabs (DevE (vals eta')))) epsilon).
    { apply xltb_val; [|reflexivity]. apply xval_xdiv; [apply xval_xabs, xval_xsub; assumption|apply xval_xadd; [reflexivity|apply xval_xabs; exact Ed]|].
      assert (P := Rabs_pos (DevE (vals eta'))). lra. }
    rewrite T. destruct (Rltb _ _) eqn:TT.
    + apply Rltb_true in TT. intros H; injection H as <-. cbn [rounds gdev].
      exists (fun j => match j with O => es | S _ => vals eta' end), 1%nat.
      split; [reflexivity|split; [lia|split; [lia|split; [|split; [lia|split; [intros _; exact Ed|split; [intros; lia|]]]]]]].
      * intros j Lj. destruct j; [|lia]. exists z, w, eta'. auto.
      * intros _. exists 0%nat. split; [reflexivity|exact TT].
    + apply Rltb_false in TT. intros H. destruct (IH _ _ _ _ _ _ _ He1 Hm' Ed H) as (ets & L & E0 & LL & ER & ES & EZ & EP & N1 & N2).
      exists (fun j => match j with O => es | S j' => ets j' end), (S L).
      split; [reflexivity|split; [lia|split; [lia|split; [|split; [lia|split; [|split]]]]]].
      * intros j Lj. destruct j as [|j]; [rewrite E0; exists z, w, eta'; auto|apply ES; lia].
      * intros _. destruct L as [|L]; [rewrite EZ by reflexivity; rewrite E0; exact Ed|apply EP; lia].
      * intros j Lj. destruct j as [|j]; [rewrite E0; unfold smallE; lra|apply N1; lia].
      * intros Lk. destruct (N2 ltac:(lia)) as [j [-> Q]]. exists (S j). split; [reflexivity|exact Q].
Qed.
Definition start_of (v : R) : R := match fam with Poisson => ln (v + 1 / 10) | Binomial => ln ((v + 1 / 2) / 2 / (1 - (v + 1 / 2) / 2)) end.
Lemma start_val : numbers n (linkfun fam (muStart fam y)) (fun i => start_of (y i)).
Proof.
  intros i L. assert (A := Y i L). unfold linkfun, muStart, start_of. destruct fam; simpl in A.
  - apply xval_xln; [reflexivity|lra].
  - assert (V : xval (binomial_muStart y ones i) = Some ((y i + 1 / 2) / 2)).
    { replace (y i + 1 / 2) with (1 * y i + 1 / 2) by ring. replace 2 with (1 + 1) at 2 by ring.
      apply xval_xdiv; [|apply xval_xadd; reflexivity|lra]. apply xval_xadd; [apply xval_xmul; reflexivity|reflexivity]. }
    apply xval_xln.
    + apply xval_xdiv; [exact V|apply xval_xsub; [reflexivity|exact V]|]. lra.
    + apply Rmult_lt_0_compat; [lra|apply Rinv_0_lt_compat; lra].
Qed.
Lemma C91_fisher_main : forall maxit epsilon undef s, (0 < maxit)%nat ->
  glm_fit fam n y wls maxit epsilon undef = Ok s ->
  exists ets : nat -> nat -> R,
    (forall i, (i < n)%nat -> ets 0%nat i = match fam with
       | Poisson => ln (y i + 1 / 10) | Binomial => ln ((y i + 1 / 2) / 2 / (1 - (y i + 1 / 2) / 2)) end) /\
    let ms k i := bounded_mean fam (ets k i) in
    let sl k i := match fam with Poisson => ms k i | Binomial => exp (ets k i) / (1 + exp (ets k i)) ^ 2 end in
    let D k := bigsum n (fun i => unit_deviance fam (y i) (ms k i)) in
    let small k := Rabs (D (S k) - D k) / (1 / 10 + Rabs (D (S k))) < epsilon in
    (0 < rounds s)%nat /\
    (forall k, (k < rounds s)%nat -> exists z w v,
       numbers n z (fun i => ets k i + (y i - ms k i) / sl k i) /\
       numbers n w (fun i => sqrt (sl k i ^ 2 / variance_of fam (ms k i))) /\
       wls z w = Ok v /\ numbers n v (ets (S k))) /\
    xval (gdev s) = Some (D (rounds s)) /\
    (forall k, (S k < rounds s)%nat -> ~ small k) /\
    ((rounds s < maxit)%nat -> exists k, rounds s = S k /\ small k).
Proof.
  intros maxit epsilon undef s PM H. unfold glm_fit in H; cbv zeta in H.
  assert (M0 := linkinv_val _ _ start_val).
  destruct (glm_trace _ _ _ _ _ _ _ _ _ start_val M0 (dev_val _ _ M0 (fun i _ => bounded_valid _)) H)
    as (ets & L & E0 & LL & ER & ES & EZ & EP & N1 & N2).
  cbn [plus] in ER.
  assert (PL : (0 < L)%nat). { destruct L; [|lia]. destruct (N2 PM) as [j [Q _]]. discriminate. }
  exists ets. split; [intros i Li; rewrite E0; reflexivity|]. cbv zeta. rewrite ER.
  split; [exact PL|]. split; [|split; [exact (EP PL)|split; [exact N1|exact N2]]].
  intros k Lk. destruct (ES k Lk) as (z & w & v & A & B & C). exists z, w, v.
  split; [|split; [|exact C]]; [clear - A|clear - B]; unfold slope_of, bounded_mean in *; destruct fam; assumption.
Qed.

(* the null deviance is the deviance at the mean response *)
Lemma C91_null_main : (0 < n)%nat ->
  xval (null_dev fam n y) = Some (bigsum n (fun i => unit_deviance fam (y i) (bigsum n y / INR n))).
Proof.
  intros Ln. unfold null_dev.
  assert (PN : 0 < INR n) by (apply lt_0_INR; exact Ln).
  assert (EN : bigsum n (fun _ : nat => 1) = INR n) by (rewrite bigsum_const; ring).
  assert (EC : bigsum n (fun i => 1 * y i) = bigsum n y) by (apply bigsum_ext; intros; ring).
  rewrite EN, EC. set (c := bigsum n y) in *. set (N := INR n) in *.
  assert (V : xval (xdiv (XF c) (XF N)) = Some (c / N)) by (apply xval_xdiv; [reflexivity|reflexivity|lra]).
  assert (Y0 : forall i, (i < n)%nat -> 0 <= y i).
  { intros i L. assert (A := Y i L). destruct fam; lra. }
  assert (C0 : 0 <= c) by (apply bigsum_nonneg; exact Y0).
  assert (Z0 : forall f, (forall i, (i < n)%nat -> f i = 0) -> Some 0 = Some (bigsum n f)).
  { intros f F. f_equal. rewrite (bigsum_ext n f (fun _ => 0) F). symmetry; apply bigsum_0. }
  destruct (Req_dec c 0) as [Z|NZ].
  - assert (AZ : forall i, (i < n)%nat -> y i = 0).
    { intros i L. exact (bigsum_zero n _ Y0 Z i L). }
    assert (QZ : c / N = 0) by (rewrite Z; field; lra). rewrite QZ in V |- *.
    rewrite <- (Z0 (fun i => unit_deviance fam (y i) 0)).
    2:{ intros i L. rewrite (AZ i L). unfold unit_deviance, ylogy. destruct fam; destruct (Req_EM_T 0 0); try lra.
        destruct (Req_EM_T (1 - 0) 0); [lra|]. replace ((1 - 0) / (1 - 0)) with 1 by field. rewrite ln_1; ring. }
    unfold dev_of. apply zero_sum. intros i L. unfold devResids. destruct fam.
    + unfold poisson_devResids; cbv zeta.
      assert (F : Rltb 0 (y i) = false) by (apply Rltb_false; rewrite AZ by exact L; lra).
      destruct (forallb _ _) eqn:FB.
      * rewrite forallb_forall in FB. specialize (FB i). rewrite in_seq in FB. assert (FB' := FB ltac:(lia)). rewrite FB' in F. discriminate.
      * rewrite F. refine (eq_trans (xval_xmul (XF 2) _ 2 (0 * 1) eq_refl (xval_xmul _ (XF 1) 0 1 V eq_refl)) _). f_equal; ring.
    + unfold binomial_devResids. rewrite (AZ i L).
      assert (W : xval (xsub (XF 1) (XF 0)) = Some (1 - 0)) by (apply xval_xsub; reflexivity).
      assert (W2 : xval (xsub (XF 1) (xdiv (XF c) (XF N))) = Some (1 - 0)) by (apply xval_xsub; [reflexivity|exact V]).
      assert (W3 := y_log_y_val _ _ _ _ W W2 ltac:(lra) ltac:(lra)).
      assert (KK : klz (1 - 0) (1 - 0) = 0) by (apply klz_zero; lra).
      assert (W4 : xval (y_log_y (XF 0) (xdiv (XF c) (XF N))) = Some 0).
      { unfold y_log_y; cbn [xval]. rewrite (proj2 (Reqb_true 0 0) eq_refl). reflexivity. }
      assert (W5 : xval (xmul (XF 2) (XF 1)) = Some (2 * 1)) by (apply xval_xmul; reflexivity).
      refine (eq_trans (xval_xmul _ _ _ _ W5 (xval_xadd _ _ _ _ W4 W3)) _). f_equal. rewrite KK. ring.
  - assert (PQ : 0 < c / N) by (apply Rmult_lt_0_compat; [lra|apply Rinv_0_lt_compat; lra]).
    assert (FC : fam = Poisson \/ fam = Binomial) by (destruct fam; auto). destruct FC as [EF|EF].
    + apply (dev_val (fun _ => xdiv (XF c) (XF N)) (fun _ => c / N)); [intros i L; exact V|]. intros i L. rewrite EF. exact PQ.
    + assert (LE : c <= N).
      { rewrite <- EN. apply bigsum_le. intros i L. assert (A := Y i L). rewrite EF in A. lra. }
      destruct (Req_dec c N) as [ENc|NN].
      * assert (A1 : forall i, (i < n)%nat -> y i = 1).
        { intros i L. assert (B : bigsum n (fun i => 1 + -1 * y i) = 0).
          { rewrite bigsum_plus, bigsum_scal. fold c. rewrite EN. lra. }
          assert (B' := bigsum_zero n (fun i => 1 + -1 * y i)). cbv beta in B'.
          assert (BB : forall j, (j < n)%nat -> 0 <= 1 + -1 * y j). { intros j Lj. assert (A := Y j Lj). rewrite EF in A. lra. }
          specialize (B' BB B i L). lra. }
        assert (Q1 : c / N = 1) by (rewrite ENc; field; lra). rewrite Q1 in V |- *.
        rewrite <- (Z0 (fun i => unit_deviance fam (y i) 1)).
        2:{ intros i L. rewrite (A1 i L), EF. unfold unit_deviance, ylogy. destruct (Req_EM_T 1 0); [lra|].
            destruct (Req_EM_T (1 - 1) 0); [|lra]. replace (1 / 1) with 1 by field. rewrite ln_1; ring. }
        unfold dev_of. apply zero_sum. intros i L. unfold devResids. rewrite EF. unfold binomial_devResids. rewrite (A1 i L).
        assert (W3 := y_log_y_val (XF 1) _ 1 1 eq_refl V ltac:(lra) ltac:(lra)).
        assert (KK : klz 1 1 = 0) by (apply klz_zero; lra).
        assert (W : xval (xsub (XF 1) (XF 1)) = Some (1 - 1)) by (apply xval_xsub; reflexivity).
        assert (W4 : xval (y_log_y (xsub (XF 1) (XF 1)) (xsub (XF 1) (xdiv (XF c) (XF N)))) = Some 0).
        { unfold y_log_y. rewrite W. destruct (Reqb (1 - 1) 0) eqn:Q; [reflexivity|]. apply Reqb_false in Q. lra. }
        assert (W5 : xval (xmul (XF 2) (XF 1)) = Some (2 * 1)) by (apply xval_xmul; reflexivity).
        refine (eq_trans (xval_xmul _ _ _ _ W5 (xval_xadd _ _ _ _ W3 W4)) _). f_equal. rewrite KK. ring.
      * apply (dev_val (fun _ => xdiv (XF c) (XF N)) (fun _ => c / N)); [intros i L; exact V|].
        intros i L. rewrite EF. simpl. split; [exact PQ|].
        apply Rmult_lt_reg_r with N; [lra|]. unfold Rdiv. rewrite Rmult_assoc, Rinv_l by lra. lra.
Qed.
End Glm.
Lemma C91_cal_main : forall fam n y wls maxit epsilon undef r,
  keeps_numbers n (fun w z => wls z w) -> valid_response fam n y -> (0 < n)%nat -> (0 < maxit)%nat ->
  cal_glm fam n y wls maxit epsilon undef = Ok r ->
  exists nd s, fst r = Some nd /\ xval nd = Some (bigsum n (fun i => unit_deviance fam (y i) (bigsum n y / INR n))) /\
    glm_fit fam n y wls maxit epsilon undef = Ok s /\ snd r = gdev s /\
    (exists d0, xval nd = Some d0 /\ 0 <= d0) /\ exists d, xval (snd r) = Some d /\ 0 <= d.
Proof.
  intros fam n y wls maxit epsilon undef r K Y Ln Lm H. unfold cal_glm in H.
  destruct (glm_fit fam n y wls maxit epsilon undef) as [s| |] eqn:E; cbn [obind] in H; try discriminate.
  destruct (C91_main fam n y wls K Y maxit epsilon undef s Ln Lm E) as (_ & C & D & D0).
  rewrite C in H. injection H as <-. exists (null_dev fam n y), s. split; [reflexivity|]. split; [exact (C91_null_main fam n y Y Ln)|].
  split; [reflexivity|]. split; [reflexivity|]. split; assumption.
Qed.
