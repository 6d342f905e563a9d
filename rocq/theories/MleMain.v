From Coq Require Import Reals Bool List Arith Lia Lra Psatz.
From Verif Require Import Outcome XReal XRealFacts Sums DiagModel DiagProofs GlmModel GlmSpec GlmProofs GlmProofs2 GlmValues GlmCritModel GlmCritProofs MleSpec.
Import ListNotations.
Local Open Scope R_scope.

(** ** Concavity *)
Lemma cumulant_tangent : forall fam e e', cumulant fam e + mean_of fam e * (e' - e) <= cumulant fam e'.
Proof.
  intros fam e e'. assert (Pe := exp_pos e). destruct fam; cbn [cumulant mean_of].
  - replace e' with (e + (e' - e)) at 2 by ring. rewrite exp_plus.
    assert (H := exp_ineq1_le (e' - e)). nra.
  - set (d := e' - e). set (m := exp e / (1 + exp e)).
    assert (M : 0 < m < 1).
    { unfold m; split; [apply Rdiv_lt_0_compat; lra|]. apply Rmult_lt_reg_r with (1 + exp e); [lra|]. unfold Rdiv; rewrite Rmult_assoc, Rinv_l by lra; lra. }
    replace e' with (e + d) by (unfold d; ring). rewrite exp_plus.
    assert (E : 1 + exp e * exp d = (1 + exp e) * ((1 - m) + m * exp d)) by (unfold m; field; lra).
    assert (Pd := exp_pos d).
    assert (Q : 0 < (1 - m) + m * exp d) by nra.
    rewrite E, ln_mult by lra.
    assert (L : exp (m * d) <= (1 - m) + m * exp d).
    { set (u := exp (m * d)). assert (U : 0 < u) by apply exp_pos.
      assert (A : u * (1 - m * d) <= 1).
      { assert (H := exp_ineq1_le (- (m * d))). assert (X : u * exp (- (m * d)) = 1) by (unfold u; rewrite <- exp_plus; replace (m * d + - (m * d)) with 0 by ring; apply exp_0). nra. }
      assert (B : u * (1 + d - m * d) <= exp d).
      { assert (H := exp_ineq1_le (d - m * d)). assert (X : u * exp (d - m * d) = exp d) by (unfold u; rewrite <- exp_plus; f_equal; ring). nra. }
      nra. }
    assert (ln (exp (m * d)) <= ln ((1 - m) + m * exp d)) by (destruct L as [L|L]; [left; apply ln_increasing; [apply exp_pos|exact L]|right; rewrite L; reflexivity]).
    rewrite ln_exp in H. lra.
Qed.
Lemma score_maximum : forall fam n p x y w b, (forall j, (j < n)%nat -> 0 <= w j) ->
  (forall a, (a < p)%nat -> bigsum n (fun j => w j * x j a * (y j - mean_of fam (lin p x b j))) = 0) ->
  max_likelihood fam n p x y w b.
Proof.
  intros fam n p x y w b W S c. unfold log_likelihood.
  assert (X : bigsum n (fun j => w j * (y j - mean_of fam (lin p x b j)) * (lin p x c j - lin p x b j)) = 0).
  { rewrite (bigsum_ext n _ (fun j => bigsum p (fun a => (c a - b a) * (w j * x j a * (y j - mean_of fam (lin p x b j)))))).
    - rewrite bigsum_swap, <- (bigsum_0 p). apply bigsum_ext. intros a L. rewrite bigsum_scal, S by exact L. ring.
    - intros j _. unfold lin at 2 3.
      rewrite (bigsum_ext p (fun a => (c a - b a) * _) (fun a => (w j * (y j - mean_of fam (lin p x b j))) * (x j a * c a + (-1) * (x j a * b a)))) by (intros a _; ring).
      rewrite bigsum_scal, bigsum_plus, bigsum_scal. ring. }
  apply Rle_trans with (bigsum n (fun j => w j * (y j * lin p x b j - cumulant fam (lin p x b j)) +
    w j * (y j - mean_of fam (lin p x b j)) * (lin p x c j - lin p x b j))).
  - apply bigsum_le. intros j L. assert (H := cumulant_tangent fam (lin p x b j) (lin p x c j)). assert (Wj := W j L). nra.
  - rewrite bigsum_plus, X. lra.
Qed.

(** ** Limits *)
Lemma cv_const : forall c, Un_cv (fun _ => c) c.
Proof. intros c e He. exists 0%nat. intros n _. unfold R_dist. rewrite Rminus_diag_eq, Rabs_R0 by reflexivity. exact He. Qed.
Lemma cv_bigsum : forall n (f : nat -> nat -> R) g, (forall i, (i < n)%nat -> Un_cv (fun k => f k i) (g i)) ->
  Un_cv (fun k => bigsum n (f k)) (bigsum n g).
Proof.
  induction n as [|n IH]; intros f g H; cbn [bigsum]; [apply cv_const|].
  apply CV_plus; [apply IH; intros; apply H; lia|apply H; lia].
Qed.
Lemma cv_cont : forall f u l, continuity_pt f l -> Un_cv u l -> Un_cv (fun k => f (u k)) (f l).
Proof. intros f u l C H; apply continuity_seq; assumption. Qed.
Lemma cv_shift : forall u l, Un_cv u l -> Un_cv (fun k => u (S k)) l.
Proof. intros u l H e He. destruct (H e He) as [N HN]. exists N. intros n Ln. apply HN; lia. Qed.
Lemma cv_ext : forall u v l, (forall k, u k = v k) -> Un_cv u l -> Un_cv v l.
Proof. intros u v l E H e He. destruct (H e He) as [N HN]. exists N. intros n Ln. rewrite <- E. apply HN, Ln. Qed.
Lemma mean_cont : forall fam e, continuity_pt (mean_of fam) e.
Proof.
  intros fam e. assert (P := exp_pos e). assert (X : continuity_pt exp e) by apply derivable_continuous_pt, derivable_pt_exp.
  destruct fam; [exact X|].
  change (continuity_pt (div_fct exp (fun z => 1 + exp z)) e). apply continuity_pt_div; [exact X| |lra].
  change (continuity_pt (plus_fct (fct_cte 1) exp) e). apply continuity_pt_plus; [apply derivable_continuous_pt, derivable_pt_const|exact X].
Qed.
Lemma variance_cv : forall fam u l, Un_cv u l -> Un_cv (fun k => variance_of fam (u k)) (variance_of fam l).
Proof.
  intros fam u l H; destruct fam; cbn [variance_of]; [exact H|].
  apply CV_mult; [exact H|]. apply CV_minus; [apply cv_const|exact H].
Qed.
Lemma limit_round : forall fam n p x y wt (B : nat -> nat -> nat -> R) L,
  (forall k, scoring_round fam n p x y wt (B k) (B (S k))) ->
  (forall i a, (i < n)%nat -> (a < p)%nat -> Un_cv (fun k => B k i a) (L i a)) ->
  forall i a, (i < n)%nat -> (a < p)%nat ->
  bigsum n (fun j => wt i j * x j a * (y j - mean_of fam (lin p x (L j) j))) =
  bigsum n (fun j => wt i j * variance_of fam (mean_of fam (lin p x (L j) j)) * x j a * (lin p x (L i) j - lin p x (L j) j)).
Proof.
  intros fam n p x y wt B L HR HL i a Li La.
  set (f := fun k j => wt i j * x j a * (y j - mean_of fam (lin p x (B k j) j)) -
    wt i j * variance_of fam (mean_of fam (lin p x (B k j) j)) * x j a * (lin p x (B (S k) i) j - lin p x (B k j) j)).
  set (g := fun j => wt i j * x j a * (y j - mean_of fam (lin p x (L j) j)) -
    wt i j * variance_of fam (mean_of fam (lin p x (L j) j)) * x j a * (lin p x (L i) j - lin p x (L j) j)).
  assert (F : forall k, bigsum n (f k) = 0).
  { intros k. rewrite <- (HR k i a Li La). apply bigsum_ext. intros j _. unfold f.
    set (m := mean_of fam (lin p x (B k j) j)).
    assert (V : 0 < variance_of fam m) by (apply variance_pos, mean_of_valid). field. lra. }
  assert (Cl : forall k j, (k < n)%nat -> Un_cv (fun h => lin p x (B h k) j) (lin p x (L k) j)).
  { intros k j Lk. unfold lin. apply (cv_bigsum p (fun h c => x j c * B h k c) (fun c => x j c * L k c)).
    intros c Lc. apply CV_mult; [apply cv_const|apply HL; assumption]. }
  assert (C : Un_cv (fun k => bigsum n (f k)) (bigsum n g)).
  { apply cv_bigsum. intros j Lj. unfold f, g.
    assert (Cm : Un_cv (fun h => mean_of fam (lin p x (B h j) j)) (mean_of fam (lin p x (L j) j))) by (apply cv_cont; [apply mean_cont|apply Cl, Lj]).
    apply CV_minus.
    - apply CV_mult; [apply cv_const|]. apply CV_minus; [apply cv_const|exact Cm].
    - apply CV_mult; [apply CV_mult; [apply CV_mult; [apply cv_const|apply variance_cv, Cm]|apply cv_const]|].
      apply CV_minus; [apply (cv_shift (fun h => lin p x (B h i) j)), Cl, Li|apply Cl, Lj]. }
  assert (Z : bigsum n g = 0).
  { apply (UL_sequence (fun k => bigsum n (f k))); [exact C|]. apply (cv_ext (fun _ => 0)); [intros k; symmetry; apply F|apply cv_const]. }
  unfold g in Z. rewrite (bigsum_ext n _ (fun j => wt i j * x j a * (y j - mean_of fam (lin p x (L j) j)) +
    (-1) * (wt i j * variance_of fam (mean_of fam (lin p x (L j) j)) * x j a * (lin p x (L i) j - lin p x (L j) j)))) in Z by (intros; ring).
  rewrite bigsum_plus, bigsum_scal in Z. lra.
Qed.

(** ** The loop *)
Section Run.
Variables (fam : family) (n p : nat) (x : nat -> nat -> R) (y : nat -> R).
Variables (solve : xvec -> xvec -> outcome xvec) (llik : xvec -> xd) (tol : R).
Variable wt : nat -> nat -> R.
Hypothesis Hs : solves_wls n p x solve.
Hypothesis Hw : forall i j, (i < n)%nat -> (j < n)%nat -> 0 <= wt i j.
Hypothesis Hy : valid_response fam n y.
Hypothesis Ht : tol <= 0.
Definition W (i : nat) : xvec := fun j => XF (wt i j).
Notation reg := (regress_with n p x solve W).
Lemma never : forall z, xltb (xabs z) (XF tol) = false.
Proof.
  intros z. destruct z as [r| |neg|]; cbn; try reflexivity.
  - unfold Rltb. destruct (Rlt_dec (Rabs r) tol) as [H|H]; [|reflexivity]. assert (P := Rabs_pos r). lra.
  - unfold Rltb. destruct (Rlt_dec 0 tol) as [H|H]; [lra|reflexivity].
Qed.
Notation state := (xvec * xvec * xvec)%type.
Definition round (s : state) : state :=
  match s with (mu, nu, w) => match reg w (adjusted fam y nu mu) with Ok nu' => (means fam nu', nu', working fam (means fam nu')) | _ => s end end.
Fixpoint rounds (k : nat) (s : state) : state := match k with O => s | S k' => rounds k' (round s) end.
Definition works (s : state) : Prop := match s with (mu, nu, w) => exists nu', reg w (adjusted fam y nu mu) = Ok nu' end.
Lemma loop_rounds : forall k mu nu w adj ll cs r, irls_loop fam y reg llik tol k mu nu w adj ll cs = Ok r ->
  mean r = fst (fst (rounds k (mu, nu, w))) /\ forall h, (h < k)%nat -> works (rounds h (mu, nu, w)).
Proof.
  induction k as [|k IH]; intros mu nu w adj ll cs r E; cbn [irls_loop] in E.
  - assert (Er : r = Irls mu w adj cs false) by congruence. rewrite Er. split; [reflexivity|intros; lia].
  - cbn [rounds round]. destruct (reg w (adjusted fam y nu mu)) as [nu'| |] eqn:En; try discriminate.
    cbn [obind] in E; cbv zeta in E. rewrite never in E. destruct (IH _ _ _ _ _ _ _ E) as [A B].
    split; [exact A|]. intros h Lh. destruct h as [|h]; [exists nu'; exact En|].
    cbn [rounds round]. rewrite En. apply B; lia.
Qed.
Lemma rounds_S : forall k s, rounds (S k) s = round (rounds k s).
Proof. induction k as [|k IH]; intros s; [reflexivity|]. cbn [rounds] in *. apply IH. Qed.
Definition coefs (s : state) : nat -> xvec :=
  match s with (mu, nu, w) => match each n (fun i => solve (fun j => xmul (W i j) (w j)) (adjusted fam y nu mu)) with Ok b => b | _ => fun _ _ => XN end end.
Definition coef (s : state) (i a : nat) : R := vals (coefs s i) a.
Lemma round_values : forall (mu nu w : xvec) ms nus ws, numbers n mu ms -> numbers n nu nus -> numbers n w ws ->
  (forall j, (j < n)%nat -> valid_mean fam (ms j)) -> (forall j, (j < n)%nat -> 0 < ws j) -> works (mu, nu, w) ->
  (forall i a, (i < n)%nat -> (a < p)%nat ->
    bigsum n (fun j => wt i j * ws j * x j a * (nus j + (y j - ms j) / variance_of fam (ms j) - lin p x (coef (mu, nu, w) i) j)) = 0) /\
  exists (mu' nu' w' : xvec), round (mu, nu, w) = (mu', nu', w') /\
    numbers n nu' (fun i => lin p x (coef (mu, nu, w) i) i) /\
    numbers n mu' (fun i => mean_of fam (lin p x (coef (mu, nu, w) i) i)) /\
    numbers n w' (fun i => variance_of fam (mean_of fam (lin p x (coef (mu, nu, w) i) i))).
Proof.
  intros mu nu w ms nus ws Hm Hn Hws Vm Pw [nu' E].
  assert (Hz := adjusted_val fam n y nu mu nus ms Hn Hm Vm).
  unfold round. rewrite E. unfold regress_with in E.
  destruct (each n _) as [b| |] eqn:Eb; try discriminate. cbn [obind] in E.
  assert (Ee : nu' = fun i => xdot p x i (b i)) by congruence. clear E.
  assert (Ec : forall i, coef (mu, nu, w) i = vals (b i)) by (intros i; unfold coef, coefs; rewrite Eb; reflexivity).
  assert (G : forall i, (i < n)%nat -> numbers p (b i) (vals (b i)) /\ forall a, (a < p)%nat ->
    bigsum n (fun j => wt i j * ws j * x j a * (nus j + (y j - ms j) / variance_of fam (ms j) - lin p x (vals (b i)) j)) = 0).
  { intros i L. assert (Ei := each_ok _ _ _ Eb i L). cbv beta in Ei.
    assert (Nw : numbers n (fun j => xmul (W i j) (w j)) (fun j => wt i j * ws j)).
    { intros j Lj. exact (xval_xmul (XF (wt i j)) (w j) (wt i j) (ws j) eq_refl (Hws j Lj)). }
    assert (NN : forall j, (j < n)%nat -> 0 <= wt i j * ws j).
    { intros j Lj. apply Rmult_le_pos; [apply Hw; assumption|left; apply Pw, Lj]. }
    destruct (Hs _ _ _ _ _ Nw NN Hz Ei) as [bs [Nb Ne]].
    assert (EQ : forall k, lin p x (vals (b i)) k = bigsum p (fun c => x k c * bs c)).
    { intros k. apply bigsum_ext. intros a La. unfold vals. rewrite (Nb a La). reflexivity. }
    split.
    - intros a La. unfold vals. rewrite (Nb a La). reflexivity.
    - intros a La. rewrite <- (Ne a La). apply bigsum_ext. intros j _. rewrite EQ. ring. }
  split; [intros i a Li La; rewrite Ec; apply (G i Li), La|].
  do 3 eexists; split; [reflexivity|].
  assert (N1 : numbers n nu' (fun i => lin p x (coef (mu, nu, w) i) i)).
  { intros i L. rewrite Ee, Ec. unfold xdot. apply xsum_val. intros a La. apply xval_xmul; [reflexivity|apply (G i L), La]. }
  assert (N2 := means_val fam n nu' _ N1).
  split; [exact N1|]. split; [exact N2|]. exact (working_val fam n _ _ N2).
Qed.
Definition start : state :=
  let mu0 : xvec := fun i => match fam with Poisson => XF (y i + 1 / 10) | Binomial => XF (1 / 2) end in
  let nu0 : xvec := fun i => match fam with Poisson => xln (mu0 i) | Binomial => XF 0 end in
  (mu0, nu0, fun _ => XF 1).
Definition numeric (s : state) : Prop := match s with (mu, nu, w) =>
  exists ms nus ws, numbers n mu ms /\ numbers n nu nus /\ numbers n w ws /\
  (forall j, (j < n)%nat -> valid_mean fam (ms j)) /\ (forall j, (j < n)%nat -> 0 < ws j) end.
Lemma start_numeric : numeric start.
Proof.
  unfold start, numeric; cbv zeta.
  exists (fun i => match fam with Poisson => y i + 1 / 10 | Binomial => 1 / 2 end), (fun i => match fam with Poisson => ln (y i + 1 / 10) | Binomial => 0 end), (fun _ => 1).
  assert (Y := Hy). unfold valid_response in Y.
  destruct fam.
  - split; [intros i L; reflexivity|]. split; [|split; [intros i L; reflexivity|split; [|intros; lra]]].
    + intros i L. specialize (Y i L). cbv beta in Y. apply xval_xln; [reflexivity|lra].
    + intros i L. specialize (Y i L). cbn. lra.
  - split; [intros i L; reflexivity|]. split; [intros i L; reflexivity|]. split; [intros i L; reflexivity|].
    split; [intros; cbn; lra|intros; lra].
Qed.
Hypothesis runs : exists (r : nat -> irls), exists adj0, forall k, irls_run fam y reg llik tol k adj0 = Ok (r k).
Lemma all_work : forall k, works (rounds k start).
Proof.
  intros k. destruct runs as [r [adj0 H]]. specialize (H (S k)). unfold irls_run in H; cbv zeta in H.
  destruct (loop_rounds _ _ _ _ _ _ _ _ H) as [_ B]. apply B; lia.
Qed.
Definition Bk (k i a : nat) : R := coef (rounds k start) i a.
Lemma chain_values : forall k, numeric (rounds k start) /\
  match rounds (S k) start with (mu, nu, w) =>
    numbers n nu (fun i => lin p x (Bk k i) i) /\ numbers n mu (fun i => mean_of fam (lin p x (Bk k i) i)) /\
    numbers n w (fun i => variance_of fam (mean_of fam (lin p x (Bk k i) i))) end.
Proof.
  assert (step : forall k, numeric (rounds k start) -> match rounds (S k) start with (mu, nu, w) =>
    numbers n nu (fun i => lin p x (Bk k i) i) /\ numbers n mu (fun i => mean_of fam (lin p x (Bk k i) i)) /\
    numbers n w (fun i => variance_of fam (mean_of fam (lin p x (Bk k i) i))) end).
  { intros k N. rewrite rounds_S. assert (Wk := all_work k). unfold Bk.
    destruct (rounds k start) as [[mu nu] w]. destruct N as (ms & nus & ws & A & B & C & D & E).
    destruct (round_values mu nu w ms nus ws A B C D E Wk) as [_ (mu' & nu' & w' & Q & F)]. rewrite Q. exact F. }
  assert (num : forall k, numeric (rounds k start)).
  { induction k as [|k IH]; [apply start_numeric|]. assert (H := step k IH). destruct (rounds (S k) start) as [[mu nu] w].
    destruct H as (A & B & C). do 3 eexists. split; [exact B|split; [exact A|split; [exact C|split]]].
    - intros j _. apply mean_of_valid.
    - intros j _. apply variance_pos, mean_of_valid. }
  intros k; split; [apply num|apply step, num].
Qed.
Lemma chain_round : forall k, scoring_round fam n p x y wt (Bk k) (Bk (S k)).
Proof.
  intros k i a Li La. cbv zeta. destruct (chain_values k) as [_ V]. assert (Wk := all_work (S k)). unfold Bk at 5.
  destruct (rounds (S k) start) as [[mu nu] w]. destruct V as (A & B & C).
  destruct (round_values mu nu w _ _ _ B A C) as [H _].
  - intros j _. apply mean_of_valid.
  - intros j _. apply variance_pos, mean_of_valid.
  - exact Wk.
  - apply (H i a Li La).
Qed.
Lemma mean_chain : forall k adj0 r, irls_run fam y reg llik tol (S k) adj0 = Ok r ->
  numbers n (mean r) (fun i => mean_of fam (lin p x (Bk k i) i)).
Proof.
  intros k adj0 r E. unfold irls_run in E; cbv zeta in E. destruct (loop_rounds _ _ _ _ _ _ _ _ E) as [-> _].
  destruct (chain_values k) as [_ V]. change (numbers n (fst (fst (rounds (S k) start))) (fun i => mean_of fam (lin p x (Bk k i) i))). destruct (rounds (S k) start) as [[mu nu] w]. apply V.
Qed.
Lemma chain_same : (forall i i', W i = W i') -> forall k i a, (i < n)%nat -> Bk k i a = Bk k 0%nat a.
Proof.
  intros Hc k i a Li. unfold Bk, coef. assert (Wk := all_work k). destruct (rounds k start) as [[mu nu] w].
  destruct Wk as [nu' E]. unfold coefs. unfold regress_with in E.
  destruct (each n _) as [b| |] eqn:Eb; try discriminate.
  assert (E1 := each_ok _ _ _ Eb i Li). assert (E0 := each_ok _ _ _ Eb 0%nat (Nat.le_lt_trans _ _ _ (Nat.le_0_l i) Li)). cbv beta in E1, E0.
  rewrite (Hc i 0%nat), E0 in E1. assert (Q : b i = b 0%nat) by congruence. rewrite ?Eb, Q. reflexivity.
Qed.

Lemma loop_total : (forall mu nu w, numeric (mu, nu, w) -> works (mu, nu, w)) ->
  forall k mu nu w adj ll cs, numeric (mu, nu, w) -> exists r, irls_loop fam y reg llik tol k mu nu w adj ll cs = Ok r.
Proof.
  intros HT. induction k as [|k IH]; intros mu nu w adj ll cs N; cbn [irls_loop]; [eauto|].
  assert (Wk := HT _ _ _ N). assert (Wk' := Wk). destruct Wk' as [nu' E].
  destruct N as (ms & nus & ws & A & B & C & D & F).
  destruct (round_values mu nu w ms nus ws A B C D F Wk) as [_ (m1 & n1 & w1 & Q & N1 & N2 & N3)].
  unfold round in Q. rewrite E in Q |- *. cbn [obind]; cbv zeta. rewrite never.
  apply IH. assert (Q1 : means fam nu' = m1 /\ nu' = n1 /\ working fam (means fam nu') = w1) by (repeat split; congruence).
  destruct Q1 as (-> & -> & Q3). do 3 eexists.
  split; [exact N2|split; [exact N1|split; [rewrite Q3; exact N3|split]]].
  - intros j _. apply mean_of_valid.
  - intros j _. apply variance_pos, mean_of_valid.
Qed.
End Run.

(** ** Main statements *)
Lemma limit_main : forall fam n p x y solve llik tol wt adj0 r,
  solves_wls n p x solve -> (forall i j, (i < n)%nat -> (j < n)%nat -> 0 <= wt i j) -> valid_response fam n y -> tol <= 0 ->
  (forall k, irls_run fam y (regress_with n p x solve (fun i j => XF (wt i j))) llik tol k adj0 = Ok (r k)) ->
  exists B : nat -> nat -> nat -> R,
    (forall k, numbers n (mean (r (S k))) (fun i => mean_of fam (lin p x (B k i) i))) /\
    (forall k, scoring_round fam n p x y wt (B k) (B (S k))) /\
    forall L, (forall i a, (i < n)%nat -> (a < p)%nat -> Un_cv (fun k => B k i a) (L i a)) ->
    forall i a, (i < n)%nat -> (a < p)%nat ->
      bigsum n (fun j => wt i j * x j a * (y j - mean_of fam (lin p x (L j) j))) =
      bigsum n (fun j => wt i j * x j a * variance_of fam (mean_of fam (lin p x (L j) j)) * (lin p x (L i) j - lin p x (L j) j)).
Proof.
  intros fam n p x y solve llik tol wt adj0 r Hs Hw Hy Ht HR.
  assert (runs : exists (r : nat -> irls) adj0, forall k, irls_run fam y (regress_with n p x solve (W wt)) llik tol k adj0 = Ok (r k)) by (exists r, adj0; exact HR).
  exists (Bk fam n p x y solve wt). split; [|split].
  - intros k. exact (mean_chain fam n p x y solve llik tol wt Hs Hw Hy Ht runs k adj0 (r (S k)) (HR (S k))).
  - exact (chain_round fam n p x y solve llik tol wt Hs Hw Hy Ht runs).
  - intros L HL i a Li La.
    rewrite (limit_round fam n p x y wt _ L (chain_round fam n p x y solve llik tol wt Hs Hw Hy Ht runs) HL i a Li La).
    apply bigsum_ext; intros; ring.
Qed.
Lemma same_main : forall fam n p x y solve llik tol w adj0 r,
  solves_wls n p x solve -> (forall j, (j < n)%nat -> 0 <= w j) -> valid_response fam n y -> tol <= 0 ->
  (forall k, irls_run fam y (regress_with n p x solve (fun _ j => XF (w j))) llik tol k adj0 = Ok (r k)) ->
  exists B : nat -> nat -> R,
    (forall k, numbers n (mean (r (S k))) (fun i => mean_of fam (lin p x (B k) i))) /\
    forall L, (forall a, (a < p)%nat -> Un_cv (fun k => B k a) (L a)) -> max_likelihood fam n p x y w L.
Proof.
  intros fam n p x y solve llik tol w adj0 r Hs Hw Hy Ht HR. set (wt := fun _ : nat => w).
  assert (Hw' : forall i j, (i < n)%nat -> (j < n)%nat -> 0 <= wt i j) by (intros; apply Hw; assumption).
  assert (runs : exists (r : nat -> irls) adj0, forall k, irls_run fam y (regress_with n p x solve (W wt)) llik tol k adj0 = Ok (r k)) by (exists r, adj0; exact HR).
  assert (same := chain_same fam n p x y solve llik tol wt Ht runs ltac:(reflexivity)).
  exists (fun k => Bk fam n p x y solve wt k 0%nat). split.
  - intros k. assert (M := mean_chain fam n p x y solve llik tol wt Hs Hw' Hy Ht runs k adj0 (r (S k)) (HR (S k))).
    intros i L. rewrite (M i L). do 2 f_equal. apply bigsum_ext. intros a La. rewrite (same k i a L). reflexivity.
  - intros L HL. apply score_maximum; [exact Hw|]. intros a La.
    destruct n as [|n']; [reflexivity|].
    assert (E := limit_round fam (S n') p x y wt _ (fun _ => L) (chain_round fam (S n') p x y solve llik tol wt Hs Hw' Hy Ht runs)
      ltac:(intros i c Li Lc; apply (cv_ext (fun k => Bk fam (S n') p x y solve wt k 0%nat c)); [intros k; symmetry; apply same; exact Li|apply HL, Lc])
      0%nat a ltac:(lia) La).
    unfold wt in E. rewrite E. rewrite <- (bigsum_0 (S n')). apply bigsum_ext; intros; ring.
Qed.

(** ** Local maxima *)
Lemma deriv_bigsum : forall n (f : nat -> R -> R) g t, (forall j, (j < n)%nat -> derivable_pt_lim (f j) t (g j)) ->
  derivable_pt_lim (fun u => bigsum n (fun j => f j u)) t (bigsum n g).
Proof.
  induction n as [|n IH]; intros f g t H; cbn [bigsum]; [apply derivable_pt_lim_const|].
  apply (derivable_pt_lim_plus (fun u => bigsum n (fun j => f j u)) (f n)); [apply IH; intros; apply H; lia|apply H; lia].
Qed.
Definition nudge (b : nat -> R) (a : nat) (t : R) (c : nat) : R := b c + (if Nat.eqb c a then t else 0).
Lemma lin_nudge : forall p x b a t j, (a < p)%nat -> lin p x (nudge b a t) j = lin p x b j + x j a * t.
Proof.
  intros p x b a t j La. unfold lin, nudge.
  rewrite (bigsum_ext p _ (fun c => x j c * b c + x j a * (if Nat.eqb c a then t else 0))).
  - rewrite bigsum_plus, bigsum_scal. f_equal. f_equal.
    clear -La. induction p as [|p IH]; [lia|]. cbn [bigsum]. destruct (Nat.eq_dec a p) as [->|N].
    + rewrite Nat.eqb_refl, (bigsum_ext p _ (fun _ => 0)), bigsum_0; [ring|].
      intros i Li. destruct (Nat.eqb_spec i p); [lia|reflexivity].
    + rewrite IH by lia. destruct (Nat.eqb_spec p a); [lia|ring].
  - intros c _. destruct (Nat.eqb_spec c a) as [->|_]; ring.
Qed.
Lemma cumulant_deriv : forall fam e, derivable_pt_lim (cumulant fam) e (mean_of fam e).
Proof.
  intros fam e. destruct fam; cbn [cumulant mean_of]; [apply derivable_pt_lim_exp|].
  assert (P := exp_pos e).
  replace (exp e / (1 + exp e)) with (/ (1 + exp e) * (0 + exp e)) by (field; lra).
  apply (derivable_pt_lim_comp (fun z => 1 + exp z) ln).
  - apply (derivable_pt_lim_plus (fct_cte 1) exp); [apply derivable_pt_lim_const|apply derivable_pt_lim_exp].
  - apply derivable_pt_lim_ln; lra.
Qed.
Lemma maximum_score : forall fam n p x y w b, max_likelihood fam n p x y w b ->
  forall a, (a < p)%nat -> bigsum n (fun j => w j * x j a * (y j - mean_of fam (lin p x b j))) = 0.
Proof.
  intros fam n p x y w b M a La.
  set (f := fun t => bigsum n (fun j => w j * (y j * (lin p x b j + x j a * t) - cumulant fam (lin p x b j + x j a * t)))).
  assert (F : forall t, f t = log_likelihood fam n p x y w (nudge b a t)).
  { intros t. unfold f, log_likelihood. apply bigsum_ext. intros j _. rewrite lin_nudge by exact La. reflexivity. }
  assert (D : derivable_pt_lim f 0 (bigsum n (fun j => w j * (y j * (x j a) - mean_of fam (lin p x b j) * x j a)))).
  { apply (deriv_bigsum n (fun j t => w j * (y j * (lin p x b j + x j a * t) - cumulant fam (lin p x b j + x j a * t)))).
    intros j _.
    assert (A : derivable_pt_lim (fun t => lin p x b j + x j a * t) 0 (x j a)).
    { cut (derivable_pt_lim (fun t => lin p x b j + x j a * t) 0 (0 + x j a * 1)); [rewrite Rplus_0_l, Rmult_1_r; exact (fun H => H)|].
      apply (derivable_pt_lim_plus (fct_cte (lin p x b j)) (fun t => x j a * t)); [apply derivable_pt_lim_const|].
      apply (derivable_pt_lim_scal (fun t => t)). apply derivable_pt_lim_id. }
    apply (derivable_pt_lim_scal (fun t => y j * (lin p x b j + x j a * t) - cumulant fam (lin p x b j + x j a * t))).
    apply (derivable_pt_lim_minus (fun t => y j * (lin p x b j + x j a * t)) (fun t => cumulant fam (lin p x b j + x j a * t))).
    - apply (derivable_pt_lim_scal (fun t => lin p x b j + x j a * t)). exact A.
    - apply (derivable_pt_lim_comp (fun t => lin p x b j + x j a * t) (cumulant fam)); [exact A|].
      replace (lin p x b j + x j a * 0) with (lin p x b j) by ring. apply cumulant_deriv. }
  assert (pr : derivable_pt f 0) by (eexists; exact D).
  assert (Z : derive_pt f 0 pr = 0).
  { apply (deriv_maximum f (-1) 1 0 pr); [lra|lra|]. intros t _ _. rewrite !F.
    assert (E : log_likelihood fam n p x y w (nudge b a 0) = log_likelihood fam n p x y w b).
    { unfold log_likelihood. apply bigsum_ext. intros j _. rewrite lin_nudge by exact La. rewrite Rmult_0_r, Rplus_0_r. reflexivity. }
    rewrite E. apply M. }
  rewrite (derive_pt_eq_0 f 0 _ pr D) in Z. rewrite <- Z. apply bigsum_ext; intros; ring.
Qed.
Lemma exp_tangent_strict : forall d, d <> 0 -> 1 + d < exp d.
Proof. exact exp_ineq1. Qed.
Lemma local_agree : forall n p x y wt (b : nat -> nat -> R) a0, (a0 < p)%nat -> (forall j, (j < n)%nat -> x j a0 = 1) ->
  (forall i j, (i < n)%nat -> (j < n)%nat -> 0 <= wt i j) ->
  (forall i, (i < n)%nat -> max_likelihood Poisson n p x y (wt i) (b i)) ->
  (forall i, (i < n)%nat -> bigsum n (fun j => wt i j * x j a0 * (y j - mean_of Poisson (lin p x (b j) j))) =
    bigsum n (fun j => wt i j * variance_of Poisson (mean_of Poisson (lin p x (b j) j)) * x j a0 * (lin p x (b i) j - lin p x (b j) j))) ->
  forall i j, (i < n)%nat -> (j < n)%nat -> 0 < wt i j -> lin p x (b i) j = lin p x (b j) j.
Proof.
  intros n p x y wt b a0 La0 X1 Hw HM HE i j Li Lj Pij.
  assert (S := maximum_score _ _ _ _ _ _ _ (HM i Li) a0 La0). assert (E := HE i Li).
  cbn [mean_of variance_of] in S, E.
  set (h := fun k => wt i k * (exp (lin p x (b i) k) - exp (lin p x (b k) k) - exp (lin p x (b k) k) * (lin p x (b i) k - lin p x (b k) k))).
  assert (H0 : bigsum n h = 0).
  { rewrite (bigsum_ext n h (fun k => (wt i k * x k a0 * (y k - exp (lin p x (b k) k)) + (-1) * (wt i k * x k a0 * (y k - exp (lin p x (b i) k)))) +
      (-1) * (wt i k * exp (lin p x (b k) k) * x k a0 * (lin p x (b i) k - lin p x (b k) k)))).
    - rewrite !bigsum_plus, !bigsum_scal. rewrite S, E. ring.
    - intros k Lk. unfold h. rewrite (X1 k Lk). ring. }
  assert (Hk : forall k, exp (lin p x (b i) k) = exp (lin p x (b k) k) * exp (lin p x (b i) k - lin p x (b k) k)).
  { intros k. rewrite <- exp_plus. f_equal; ring. }
  assert (Hn : forall k, (k < n)%nat -> 0 <= h k).
  { intros k Lk. unfold h. rewrite Hk. assert (P := exp_pos (lin p x (b k) k)).
    assert (Q := exp_ineq1_le (lin p x (b i) k - lin p x (b k) k)). assert (V := Hw i k Li Lk).
    apply Rmult_le_pos; [exact V|]. nra. }
  destruct (Req_dec (lin p x (b i) j) (lin p x (b j) j)) as [Q|Q]; [exact Q|exfalso].
  assert (Hj : 0 < h j).
  { unfold h. rewrite Hk. assert (P := exp_pos (lin p x (b j) j)).
    assert (T := exp_tangent_strict (lin p x (b i) j - lin p x (b j) j) ltac:(lra)).
    apply Rmult_lt_0_compat; [exact Pij|]. nra. }
  assert (h j <= bigsum n h); [|lra].
  clear -Hn Lj. induction n as [|n IH]; [lia|]. cbn [bigsum]. destruct (Nat.eq_dec j n) as [->|N].
  - assert (0 <= bigsum n h); [|lra]. rewrite <- (bigsum_0 n). apply bigsum_le. intros; apply Hn; lia.
  - assert (h j <= bigsum n h) by (apply IH; [lia|intros; apply Hn; lia]). assert (0 <= h n) by (apply Hn; lia). lra.
Qed.
