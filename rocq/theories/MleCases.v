From Coq Require Import Reals Bool List Arith Lia Lra Psatz.
From Verif Require Import Outcome XReal XRealFacts Sums DiagModel DiagProofs GlmModel GlmSpec GlmProofs GlmProofs2 GlmValues GlmCritModel GlmCritProofs MleSpec MleMain.
Import ListNotations.
Local Open Scope R_scope.

Lemma local_main : forall n p x y solve llik tol wt adj0 r a0 (b : nat -> nat -> R),
  solves_wls n p x solve -> (forall i j, (i < n)%nat -> (j < n)%nat -> 0 <= wt i j) -> valid_response Poisson n y -> tol <= 0 ->
  (forall k, irls_run Poisson y (regress_with n p x solve (fun i j => XF (wt i j))) llik tol k adj0 = Ok (r k)) ->
  (a0 < p)%nat -> (forall j, (j < n)%nat -> x j a0 = 1) ->
  (forall i, (i < n)%nat -> max_likelihood Poisson n p x y (wt i) (b i)) ->
  exists B : nat -> nat -> nat -> R,
    (forall k, numbers n (mean (r (S k))) (fun i => exp (lin p x (B k i) i))) /\
    (forall k, scoring_round Poisson n p x y wt (B k) (B (S k))) /\
    ((forall i a, (i < n)%nat -> (a < p)%nat -> Un_cv (fun k => B k i a) (b i a)) ->
     forall i j, (i < n)%nat -> (j < n)%nat -> 0 < wt i j -> lin p x (b i) j = lin p x (b j) j).
Proof.
  intros n p x y solve llik tol wt adj0 r a0 b Hs Hw Hy Ht HR La0 X1 HM.
  destruct (limit_main Poisson n p x y solve llik tol wt adj0 r Hs Hw Hy Ht HR) as (B & A1 & A2 & A3).
  exists B. split; [exact A1|]. split; [exact A2|]. intros HL.
  apply (local_agree n p x y wt b a0 La0 X1 Hw HM). intros i Li.
  rewrite (A3 b HL i a0 Li La0). apply bigsum_ext; intros; ring.
Qed.

(** ** Three points and their weighted means *)
Lemma runs3 : forall fam y llik tol wt adj0, (forall i j, (i < 3)%nat -> (j < 3)%nat -> 0 < wt i j) -> valid_response fam 3 y -> tol <= 0 ->
  exists r, forall k, irls_run fam y (regress_with 3 1 (fun _ _ => 1) mean3 (fun i j => XF (wt i j))) llik tol k adj0 = Ok (r k).
Proof.
  intros fam y llik tol wt adj0 Hw Hy Ht.
  assert (Hw' : forall i j, (i < 3)%nat -> (j < 3)%nat -> 0 <= wt i j) by (intros; left; apply Hw; assumption).
  assert (HT : forall mu nu w, numeric fam 3 (mu, nu, w) -> works fam 3 1 (fun _ _ => 1) y mean3 wt (mu, nu, w)).
  { intros mu nu w (ms & nus & ws & A & B & C & D & F).
    assert (Hz := adjusted_val fam 3 y nu mu nus ms B A D). unfold works, regress_with.
    destruct (each_total 3 (fun i => mean3 (fun j => xmul (W wt i j) (w j)) (adjusted fam y nu mu))) as [b Eb].
    - intros i Li.
      assert (Nw : numbers 3 (fun j => xmul (W wt i j) (w j)) (fun j => wt i j * ws j)).
      { intros j Lj. exact (xval_xmul (XF (wt i j)) (w j) (wt i j) (ws j) eq_refl (C j Lj)). }
      assert (N : bigsum 3 (fun j => wt i j * ws j) <> 0).
      { assert (P : forall j, (j < 3)%nat -> 0 < wt i j * ws j) by (intros j Lj; apply Rmult_lt_0_compat; [apply Hw; assumption|apply F, Lj]).
        assert (P0 := P 0%nat ltac:(lia)). assert (P1 := P 1%nat ltac:(lia)). assert (P2 := P 2%nat ltac:(lia)).
        rewrite bigsum3. lra. }
      destruct (mean3_val _ _ _ _ Nw Hz N) as [c [E _]]. eauto.
    - rewrite Eb. cbn [obind]. eauto. }
  assert (T : forall k, exists r, irls_run fam y (regress_with 3 1 (fun _ _ => 1) mean3 (fun i j => XF (wt i j))) llik tol k adj0 = Ok r).
  { intros k. unfold irls_run; cbv zeta.
    apply (loop_total fam 3 1 (fun _ _ => 1) y mean3 llik tol wt mean3_wls Hw' Ht HT). apply (start_numeric fam 3 y Hy). }
  exists (fun k => match irls_run fam y (regress_with 3 1 (fun _ _ => 1) mean3 (fun i j => XF (wt i j))) llik tol k adj0 with Ok r => r | _ => Irls (fun _ => XN) (fun _ => XN) (fun _ => XN) [] false end).
  intros k. destruct (T k) as [r E]. rewrite E. reflexivity.
Qed.
(** Local maxima of (0, 0, 1) under wt3 *)
Definition ms3 (i : nat) : R := match i with 0%nat => 1 / 7 | 1%nat => 2 / 11 | _ => 12 / 19 end.
Lemma lin1 : forall b j, lin 1 (fun _ _ => 1) b j = b 0%nat.
Proof. intros; unfold lin; cbn [bigsum]; ring. Qed.
Lemma ms3_pos : forall i, 0 < ms3 i.
Proof. intros [|[|i]]; cbn; lra. Qed.
Lemma wt3_pos : forall i j, (i < 3)%nat -> (j < 3)%nat -> 0 < wt3 i j.
Proof. intros [|[|[|i]]] [|[|[|j]]] Li Lj; try lia; cbn; lra. Qed.
Lemma ms3_best : forall i, (i < 3)%nat -> max_likelihood Poisson 3 1 (fun _ _ => 1) (y3 0) (wt3 i) (fun _ => ln (ms3 i)).
Proof.
  intros i Li. apply score_maximum; [intros j Lj; left; apply wt3_pos; assumption|].
  intros a La. rewrite bigsum3. cbn [mean_of]. rewrite !lin1, exp_ln by apply ms3_pos.
  destruct i as [|[|[|i]]]; [| | |lia]; cbn [wt3 y3 ms3]; lra.
Qed.
Lemma ln_cont : forall m, 0 < m -> continuity_pt ln m.
Proof. intros m P. apply derivable_continuous_pt. exists (/ m). apply derivable_pt_lim_ln, P. Qed.
Lemma local_witness : exists n y wt (solve : xvec -> xvec -> outcome xvec) llik adj0 (r : nat -> irls) (m : nat -> nat -> R) (ms : nat -> R),
  solves_wls n 1 (fun _ _ => 1) solve /\ (forall i j, (i < n)%nat -> (j < n)%nat -> 0 < wt i j /\ wt i j = wt j i) /\ valid_response Poisson n y /\
  (forall k, irls_run Poisson y (regress_with n 1 (fun _ _ => 1) solve (fun i j => XF (wt i j))) llik 0 k adj0 = Ok (r k)) /\
  (forall k, numbers n (mean (r k)) (m k)) /\
  (forall i, (i < n)%nat -> 0 < ms i /\ max_likelihood Poisson n 1 (fun _ _ => 1) y (wt i) (fun _ => ln (ms i))) /\
  ~ (forall i, (i < n)%nat -> Un_cv (fun k => m k i) (ms i)).
Proof.
  assert (Hy : valid_response Poisson 3 (y3 0)) by (intros [|[|[|i]]] L; cbn; try lia; lra).
  destruct (runs3 Poisson (y3 0) (fun _ => XF (-1)) 0 wt3 (fun _ => XF 0) wt3_pos Hy ltac:(lra)) as [r HR].
  exists 3%nat, (y3 0), wt3, mean3, (fun _ => XF (-1)), (fun _ => XF 0), r, (fun k => vals (mean (r k))), ms3.
  split; [exact mean3_wls|]. split.
  { intros i j Li Lj. split; [apply wt3_pos; assumption|]. destruct i as [|[|[|i]]], j as [|[|[|j]]]; try lia; reflexivity. }
  split; [exact Hy|]. split; [exact HR|].
  destruct (local_main 3 1 (fun _ _ => 1) (y3 0) mean3 (fun _ => XF (-1)) 0 wt3 (fun _ => XF 0) r 0%nat (fun i _ => ln (ms3 i))
    mean3_wls ltac:(intros; left; apply wt3_pos; assumption) Hy ltac:(lra) HR ltac:(lia) ltac:(reflexivity) ms3_best) as (B & A1 & _ & A3).
  split.
  { intros k. assert (H : exists ms, numbers 3 (mean (r k)) ms).
    { destruct k as [|k]; [|eexists; apply A1]. assert (H0 := HR 0%nat). unfold irls_run in H0; cbv zeta in H0. cbn [irls_loop] in H0.
      assert (Er : r 0%nat = Irls (fun i => XF (y3 0 i + 1 / 10)) (fun _ => XF 1) (fun _ => XF 0) [] false) by congruence.
      rewrite Er. exists (fun i => y3 0 i + 1 / 10). intros i _. reflexivity. }
    destruct H as [ms H]. intros i Li. unfold vals. rewrite (H i Li). reflexivity. }
  split; [intros i Li; split; [apply ms3_pos|apply ms3_best, Li]|].
  intros C.
  assert (Q := A3 ltac:(intros i a Li La; assert (Ea : a = 0%nat) by lia; rewrite Ea;
    apply (cv_ext (fun k => ln (vals (mean (r (S k))) i)));
      [intros k; unfold vals; rewrite (A1 k i Li), lin1; apply ln_exp|
       apply (cv_cont ln (fun k => vals (mean (r (S k))) i)); [apply ln_cont, ms3_pos|apply (cv_shift (fun k => vals (mean (r k)) i)), C, Li]])
    0%nat 2%nat ltac:(lia) ltac:(lia) (wt3_pos 0 2 ltac:(lia) ltac:(lia))).
  rewrite !lin1 in Q. apply ln_inv in Q; try apply ms3_pos. cbn in Q. lra.
Qed.

(** ** Cases *)
Lemma limit_case : solves_wls 3 1 (fun _ _ => 1) mean3 /\ (forall i j, (i < 3)%nat -> (j < 3)%nat -> 0 <= wt3 i j) /\ valid_response Poisson 3 (y3 0) /\
  exists r, forall k, irls_run Poisson (y3 0) (regress_with 3 1 (fun _ _ => 1) mean3 (fun i j => XF (wt3 i j))) (fun _ => XF (-1)) 0 k (fun _ => XF 0) = Ok (r k).
Proof.
  split; [exact mean3_wls|]. split; [intros; left; apply wt3_pos; assumption|].
  assert (Hy : valid_response Poisson 3 (y3 0)) by (intros [|[|[|i]]] L; cbn; try lia; lra).
  split; [exact Hy|]. exact (runs3 Poisson (y3 0) _ 0 wt3 _ wt3_pos Hy ltac:(lra)).
Qed.
(** Shares 0, 1/2 and 1 with equal weights: every round gives coefficient zero. *)
Definition half3 (i : nat) : R := match i with 0%nat => 0 | 1%nat => 1 / 2 | _ => 1 end.
Lemma half_valid : valid_response Binomial 3 half3.
Proof. intros [|[|[|i]]] L; cbn; try lia; lra. Qed.
Lemma half_rounds : forall r, (forall k, irls_run Binomial half3 (regress_with 3 1 (fun _ _ => 1) mean3 (fun _ _ => XF 1)) (fun _ => XF (-1)) 0 k (fun _ => XF 0) = Ok (r k)) ->
  forall k, numbers 3 (mean (r k)) (fun _ => 1 / 2).
Proof.
  intros r HR.
  assert (Hw : forall i j : nat, (i < 3)%nat -> (j < 3)%nat -> 0 <= (fun _ _ : nat => 1) i j) by (intros; lra).
  assert (runs : exists (r : nat -> irls) adj0, forall k, irls_run Binomial half3 (regress_with 3 1 (fun _ _ => 1) mean3 (W (fun _ _ => 1))) (fun _ => XF (-1)) 0 k adj0 = Ok (r k)) by (exists r, (fun _ => XF 0); exact HR).
  assert (I : forall k, match rounds Binomial 3 1 (fun _ _ => 1) half3 mean3 (fun _ _ => 1) k (start Binomial half3) with (mu, nu, w) =>
    numbers 3 mu (fun _ => 1 / 2) /\ numbers 3 nu (fun _ => 0) /\ exists c, 0 < c /\ numbers 3 w (fun _ => c) end).
  { induction k as [|k IH].
    - cbn [rounds start]. split; [intros i L; reflexivity|]. split; [intros i L; reflexivity|]. exists 1. split; [lra|intros i L; reflexivity].
    - rewrite rounds_S. assert (Wk := all_work Binomial 3 1 (fun _ _ => 1) half3 mean3 (fun _ => XF (-1)) 0 (fun _ _ => 1) ltac:(lra) runs k).
      destruct (rounds _ _ _ _ _ _ _ k _) as [[mu nu] w]. destruct IH as (A & B & c & Pc & C).
      destruct (round_values Binomial 3 1 (fun _ _ => 1) half3 mean3 (fun _ _ => 1) mean3_wls Hw mu nu w _ _ _ A B C
        ltac:(intros; cbn; lra) ltac:(intros; lra) Wk) as [E (mu' & nu' & w' & -> & N1 & N2 & N3)].
      assert (Z : forall i, (i < 3)%nat -> coef Binomial 3 half3 mean3 (fun _ _ => 1) (mu, nu, w) i 0%nat = 0).
      { intros i Li. assert (Ei := E i 0%nat Li ltac:(lia)). rewrite bigsum3, !lin1 in Ei. cbn [half3 variance_of] in Ei.
        set (v := coef _ _ _ _ _ _ _ _) in *. apply Rmult_eq_reg_l with (3 * c); [|lra].
        replace (3 * c * v) with (- (1 * c * 1 * (0 + (0 - 1 / 2) / (1 / 2 * (1 - 1 / 2)) - v) + 1 * c * 1 * (0 + (1 / 2 - 1 / 2) / (1 / 2 * (1 - 1 / 2)) - v) + 1 * c * 1 * (0 + (1 - 1 / 2) / (1 / 2 * (1 - 1 / 2)) - v))) by field.
        rewrite Ei. ring. }
      split; [|split].
      + intros i L. rewrite (N2 i L), lin1, Z by exact L. cbn [mean_of]. rewrite exp_0. f_equal; lra.
      + intros i L. rewrite (N1 i L), lin1, Z by exact L. reflexivity.
      + exists (1 / 4). split; [lra|]. intros i L. rewrite (N3 i L), lin1, Z by exact L. cbn [mean_of variance_of]. rewrite exp_0. f_equal; lra. }
  intros k. specialize (HR k). unfold irls_run in HR; cbv zeta in HR.
  destruct (loop_rounds Binomial 3 1 (fun _ _ => 1) half3 mean3 (fun _ => XF (-1)) 0 (fun _ _ => 1) ltac:(lra) _ _ _ _ _ _ _ _ HR) as [-> _].
  specialize (I k). change (numbers 3 (fst (fst (rounds Binomial 3 1 (fun _ _ => 1) half3 mean3 (fun _ _ => 1) k (start Binomial half3)))) (fun _ => 1 / 2)).
  destruct (rounds _ _ _ _ _ _ _ k _) as [[mu nu] w]. apply I.
Qed.
Lemma same_case : solves_wls 3 1 (fun _ _ => 1) mean3 /\ valid_response Binomial 3 half3 /\
  exists r, (forall k, irls_run Binomial half3 (regress_with 3 1 (fun _ _ => 1) mean3 (fun _ _ => XF 1)) (fun _ => XF (-1)) 0 k (fun _ => XF 0) = Ok (r k)) /\
    (forall k, numbers 3 (mean (r k)) (fun _ => mean_of Binomial 0)) /\ max_likelihood Binomial 3 1 (fun _ _ => 1) half3 (fun _ => 1) (fun _ => 0).
Proof.
  split; [exact mean3_wls|]. split; [exact half_valid|].
  destruct (runs3 Binomial half3 (fun _ => XF (-1)) 0 (fun _ _ => 1) (fun _ => XF 0) ltac:(intros; lra) half_valid ltac:(lra)) as [r HR].
  exists r. split; [exact HR|]. split.
  - intros k i L. rewrite (half_rounds r HR k i L). cbn [mean_of]. rewrite exp_0. f_equal; lra.
  - apply score_maximum; [intros; lra|]. intros a _. rewrite bigsum3, !lin1. cbn [mean_of half3]. rewrite exp_0. lra.
Qed.
Lemma local_case : solves_wls 3 1 (fun _ _ => 1) mean3 /\ (forall i j, (i < 3)%nat -> (j < 3)%nat -> 0 < wt3 i j) /\ valid_response Poisson 3 (y3 0) /\
  (exists r, forall k, irls_run Poisson (y3 0) (regress_with 3 1 (fun _ _ => 1) mean3 (fun i j => XF (wt3 i j))) (fun _ => XF (-1)) 0 k (fun _ => XF 0) = Ok (r k)) /\
  (forall i, (i < 3)%nat -> max_likelihood Poisson 3 1 (fun _ _ => 1) (y3 0) (wt3 i) (fun _ => ln (ms3 i))).
Proof.
  destruct limit_case as (A & _ & C & D). split; [exact A|]. split; [exact wt3_pos|]. split; [exact C|]. split; [exact D|exact ms3_best].
Qed.
