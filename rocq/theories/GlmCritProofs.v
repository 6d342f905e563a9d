From Coq Require Import Reals Bool List Arith ZArith Lia Lra Psatz.
From Verif Require Import Outcome XReal XRealFacts Sums DiagModel DiagProofs GlmModel GlmSpec GlmProofs GlmProofs2 GlmValues GlmCritModel.
Import ListNotations.
Local Open Scope R_scope.

Lemma each_ok : forall n f g, each n f = Ok g -> forall i, (i < n)%nat -> f i = Ok (g i).
Proof.
  induction n as [|k IH]; intros f g E i L; [lia|]. cbn [each] in E.
  destruct (each k f) as [g0| |] eqn:E0; try discriminate. cbn [obind] in E.
  destruct (f k) as [a| |] eqn:E1; try discriminate. cbn [obind] in E.
  assert (Eg : g = fun i => if Nat.eqb i k then a else g0 i) by congruence. rewrite Eg.
  destruct (Nat.eqb_spec i k) as [->|N]; [exact E1|]. apply IH; [exact E0|lia].
Qed.
Lemma each_total : forall n f, (forall i, (i < n)%nat -> exists b, f i = Ok b) -> exists g, each n f = Ok g.
Proof.
  induction n as [|k IH]; intros f H; cbn [each]; [eauto|].
  destruct (IH f) as [g ->]; [intros; apply H; lia|]. destruct (H k) as [b ->]; [lia|]. cbn [obind]; eauto.
Qed.

(** Normal equations give the minimum *)
Lemma normal_minimum : forall n p (x : nat -> nat -> R) w z b c, (forall j, (j < n)%nat -> 0 <= w j) ->
  (forall a, (a < p)%nat -> bigsum n (fun j => w j * x j a * (z j - bigsum p (fun c => x j c * b c))) = 0) ->
  bigsum n (fun j => w j * (z j - bigsum p (fun a => x j a * b a)) ^ 2) <=
  bigsum n (fun j => w j * (z j - bigsum p (fun a => x j a * c a)) ^ 2).
Proof.
  intros n p x w z b c W N.
  set (fb := fun j => bigsum p (fun a => x j a * b a)). set (fc := fun j => bigsum p (fun a => x j a * c a)).
  assert (X : bigsum n (fun j => w j * (z j - fb j) * (fb j - fc j)) = 0).
  { rewrite (bigsum_ext n _ (fun j => bigsum p (fun a => (b a - c a) * (w j * x j a * (z j - fb j))))).
    - rewrite bigsum_swap. rewrite <- (bigsum_0 p). apply bigsum_ext. intros a L.
      rewrite bigsum_scal. unfold fb. rewrite N by exact L. ring.
    - intros j _.
      rewrite (bigsum_ext p _ (fun a => (w j * (z j - fb j)) * (x j a * b a + (-1) * (x j a * c a)))).
      + rewrite bigsum_scal, bigsum_plus, bigsum_scal. fold (fb j) (fc j). ring.
      + intros a _; ring. }
  assert (E : bigsum n (fun j => w j * (z j - fc j) ^ 2) =
    bigsum n (fun j => w j * (z j - fb j) ^ 2) + bigsum n (fun j => w j * (fb j - fc j) ^ 2)).
  { rewrite (bigsum_ext n _ (fun j => (w j * (z j - fb j) ^ 2 + w j * (fb j - fc j) ^ 2) + 2 * (w j * (z j - fb j) * (fb j - fc j)))).
    - rewrite bigsum_plus, bigsum_plus, bigsum_scal, X. ring.
    - intros j _; ring. }
  unfold fb, fc in *. rewrite E. assert (0 <= bigsum n (fun j => w j * (bigsum p (fun a => x j a * b a) - bigsum p (fun a => x j a * c a)) ^ 2)); [|lra].
  apply bigsum_nonneg. intros j L. apply Rmult_le_pos; [apply W, L|apply pow2_ge_0].
Qed.

Section Cv.
Variables (fam : family) (n p : nat) (x : nat -> nat -> R) (y : nat -> R).
Variables (solve : xvec -> xvec -> outcome xvec) (llik : xvec -> xd) (tol : R).
Variable wt : nat -> nat -> R.
Hypothesis Hs : solves_wls n p x solve.
Hypothesis Hw : forall i j, (i < n)%nat -> (j < n)%nat -> 0 <= wt i j.
Notation reg := (regress_with n p x solve (loo wt)).

Definition lw (w2 : nat -> R) (i j : nat) : R := if Nat.eqb j i then 0 else wt i j * w2 j.
Lemma lw_numbers : forall w2 ws i, numbers n w2 ws -> numbers n (fun j => xmul (loo wt i j) (w2 j)) (lw ws i).
Proof.
  intros w2 ws i H j L. unfold loo, lw. destruct (Nat.eqb j i).
  - rewrite (xval_xmul (XF 0) (w2 j) 0 (ws j) eq_refl (H j L)). f_equal; ring.
  - exact (xval_xmul (XF (wt i j)) (w2 j) (wt i j) (ws j) eq_refl (H j L)).
Qed.
Lemma reg_values : forall w2 z ws zs e, numbers n w2 ws -> (forall j, (j < n)%nat -> 0 < ws j) -> numbers n z zs ->
  reg w2 z = Ok e -> exists bs : nat -> nat -> R, forall i, (i < n)%nat ->
    xval (e i) = Some (bigsum p (fun a => x i a * bs i a)) /\
    forall c, bigsum n (fun j => lw ws i j * (zs j - bigsum p (fun a => x j a * bs i a)) ^ 2) <=
              bigsum n (fun j => lw ws i j * (zs j - bigsum p (fun a => x j a * c a)) ^ 2).
Proof.
  intros w2 z ws zs e Hw2 Pw Hz E. unfold regress_with in E.
  destruct (each n _) as [b| |] eqn:Eb; try discriminate. cbn [obind] in E.
  assert (Ee : e = fun i => xdot p x i (b i)) by congruence. clear E.
  assert (G : forall i, (i < n)%nat -> exists bs, numbers p (b i) bs /\
    forall c, bigsum n (fun j => lw ws i j * (zs j - bigsum p (fun a => x j a * bs a)) ^ 2) <=
              bigsum n (fun j => lw ws i j * (zs j - bigsum p (fun a => x j a * c a)) ^ 2)).
  { intros i L. assert (Ei := each_ok _ _ _ Eb i L). cbv beta in Ei.
    assert (NN : forall j, (j < n)%nat -> 0 <= lw ws i j).
    { intros j Lj. unfold lw. destruct (Nat.eqb j i); [lra|]. apply Rmult_le_pos; [apply Hw; assumption|]. left; apply Pw, Lj. }
    destruct (Hs _ _ _ _ _ (lw_numbers _ _ i Hw2) NN Hz Ei) as [bs [Nb Ne]].
    exists bs; split; [exact Nb|]. intros c. apply normal_minimum; assumption. }
  (* choose coefficients point by point *)
  exists (fun i a => match xval (b i a) with Some r => r | None => 0 end). intros i L.
  destruct (G i L) as [bs [Nb M]].
  assert (EQ : forall k, bigsum p (fun a => x k a * match xval (b i a) with Some r => r | None => 0 end) = bigsum p (fun a => x k a * bs a)).
  { intros k. apply bigsum_ext. intros a La. rewrite (Nb a La). reflexivity. }
  split.
  - rewrite Ee, EQ. unfold xdot. apply xsum_val. intros a La. apply xval_xmul; [reflexivity|apply Nb, La].
  - intros c. rewrite (bigsum_ext n _ (fun j => lw ws i j * (zs j - bigsum p (fun a => x j a * bs a)) ^ 2)).
    + apply M.
    + intros j _. rewrite EQ. reflexivity.
Qed.
Lemma reg_keeps : keeps_numbers n reg.
Proof.
  intros w z nu Hw2 Hz E i L.
  destruct (GlmValues.vals_ok n (Rlt 0) w Hw2) as [Nw Pw]. destruct (GlmValues.vals_ok n _ z Hz) as [Nz _].
  destruct (reg_values _ _ _ _ _ Nw Pw Nz E) as [bs H]. destruct (H i L) as [V _]. eauto.
Qed.
Hypothesis Hy : valid_response fam n y.
Lemma loop_state : forall k mu nu w adj ll cs r, all_numbers n (valid_mean fam) mu -> all_numbers n (fun _ => True) nu ->
  all_numbers n (Rlt 0) w -> irls_loop fam y reg llik tol k mu nu w adj ll cs = Ok r ->
  all_numbers n (Rlt 0) (wt2 r) /\ ((0 < k)%nat \/ all_numbers n (fun _ => True) adj -> all_numbers n (fun _ => True) (yadj r)).
Proof.
  induction k as [|k IH]; intros mu nu w adj ll cs r Hm Hn Hw2 E; cbn [irls_loop] in E.
  - assert (Er : r = Irls mu w adj cs false) by congruence. rewrite Er; cbn [wt2 yadj]. split; [exact Hw2|]. intros [H|H]; [lia|exact H].
  - assert (Ha : all_numbers n (fun _ => True) (adjusted fam y nu mu)) by (eapply adjusted_ok; eauto using reg_keeps).
    destruct (reg w (adjusted fam y nu mu)) as [nu'| |] eqn:En; try discriminate. cbn [obind] in E; cbv zeta in E.
    assert (Hn' := reg_keeps _ _ _ Hw2 Ha En).
    assert (Hm' : all_numbers n (valid_mean fam) (means fam nu')) by (eapply means_ok; eauto using reg_keeps).
    assert (Hw' : all_numbers n (Rlt 0) (working fam (means fam nu'))) by (eapply working_ok; eauto using reg_keeps).
    match type of E with context [if ?c then _ else _] => destruct c end.
    + injection E as <-; cbn [wt2 yadj]. split; [exact Hw2|intros _; exact Ha].
    + destruct (IH _ _ _ _ _ _ _ Hm' Hn' Hw' E) as [A B]. split; [exact A|]. intros _; apply B; right; exact Ha.
Qed.
Lemma run_state : forall maxiter adj0 r, (0 < maxiter)%nat -> irls_run fam y reg llik tol maxiter adj0 = Ok r ->
  all_numbers n (Rlt 0) (wt2 r) /\ all_numbers n (fun _ => True) (yadj r).
Proof.
  intros maxiter adj0 r L E. unfold irls_run in E; cbv zeta in E.
  assert (Hm : all_numbers n (valid_mean fam) (fun i => match fam with Poisson => XF (y i + 1 / 10) | Binomial => XF (1 / 2) end)) by (eapply start_mean; eauto using reg_keeps).
  assert (Hn : all_numbers n (fun _ => True)
    (fun i => match fam with Poisson => xln (match fam with Poisson => XF (y i + 1 / 10) | Binomial => XF (1 / 2) end) | Binomial => XF 0 end)) by (eapply start_nu; eauto using reg_keeps).
  destruct (loop_state _ _ _ _ _ _ _ _ Hm Hn (one_pos n) E) as [A B].
  split; [exact A|]. apply B; left; exact L.
Qed.
Lemma cv_main : forall maxiter adj0 c, (0 < maxiter)%nat ->
  cv_criterion fam n p x y solve llik tol wt maxiter adj0 = Ok c ->
  exists r ws zs (bs : nat -> nat -> R) v, irls_run fam y reg llik tol maxiter adj0 = Ok r /\
    numbers n (wt2 r) ws /\ (forall j, (j < n)%nat -> 0 < ws j) /\ numbers n (yadj r) zs /\
    c = Some v /\ xval v = Some (bigsum n (fun i => (y i - mean_of fam (bigsum p (fun a => x i a * bs i a))) ^ 2)) /\
    forall i b, (i < n)%nat ->
      bigsum n (fun j => (if Nat.eqb j i then 0 else wt i j * ws j) * (zs j - bigsum p (fun a => x j a * bs i a)) ^ 2) <=
      bigsum n (fun j => (if Nat.eqb j i then 0 else wt i j * ws j) * (zs j - bigsum p (fun a => x j a * b a)) ^ 2).
Proof.
  intros maxiter adj0 c L E. unfold cv_criterion, cv_means in E.
  destruct (irls_run _ _ _ _ _ _ _) as [r| |] eqn:Er; try discriminate. cbn [obind] in E.
  destruct (reg (wt2 r) (yadj r)) as [e| |] eqn:Ee; try discriminate. cbn [obind] in E; cbv zeta in E.
  destruct (run_state _ _ _ L Er) as [A B].
  destruct (GlmValues.vals_ok n (Rlt 0) _ A) as [Nw Pw]. destruct (GlmValues.vals_ok n _ _ B) as [Nz _].
  destruct (reg_values _ _ _ _ _ Nw Pw Nz Ee) as [bs H].
  set (sq := fun i => (y i - mean_of fam (bigsum p (fun a => x i a * bs i a))) ^ 2).
  assert (Nm : numbers n (means fam e) (fun i => mean_of fam (bigsum p (fun a => x i a * bs i a)))).
  { intros i Li. destruct (H i Li) as [V _]. unfold means, mean_of. destruct fam.
    - apply xval_xexp, V.
    - assert (X := xval_xexp _ _ V). apply xval_xdiv; [exact X|apply (xval_xadd (XF 1) _ 1 _ eq_refl X)|].
      pose proof (exp_pos (bigsum p (fun a => x i a * bs i a))). lra. }
  assert (V : xval (xsum n (fun i => xmul (xsub (XF (y i)) (means fam e i)) (xsub (XF (y i)) (means fam e i)))) = Some (bigsum n sq)).
  { apply xsum_val. intros i Li. assert (X := xval_xsub (XF (y i)) _ (y i) _ eq_refl (Nm i Li)).
    rewrite (xval_xmul _ _ _ _ X X). f_equal. unfold sq; ring. }
  set (res := xsum n _) in E, V.
  assert (Fin : xisfinite res = true) by (destruct res; cbn in V; try discriminate; reflexivity).
  rewrite Fin in E.
  exists r, (GlmValues.vals (wt2 r)), (GlmValues.vals (yadj r)), bs, res.
  split; [reflexivity|]. split; [exact Nw|]. split; [exact Pw|]. split; [exact Nz|]. split; [congruence|].
  split; [exact V|]. intros i b Li. destruct (H i Li) as [_ M]. apply M.
Qed.
End Cv.

(** ** Cross-validation is not leave-one-out *)
Definition mean3 (w z : xvec) : outcome xvec :=
  match xval (xsum 3 w) with
  | Some s => if Reqb s 0 then Throw else Ok (fun _ => xdiv (xsum 3 (fun j => xmul (w j) (z j))) (xsum 3 w))
  | None => Throw
  end.
Lemma bigsum3 : forall f, bigsum 3 f = f 0%nat + f 1%nat + f 2%nat.
Proof. intros f; cbn [bigsum]; ring. Qed.
Lemma mean3_val : forall w z ws zs, numbers 3 w ws -> numbers 3 z zs -> bigsum 3 ws <> 0 ->
  exists b, mean3 w z = Ok b /\ forall a, xval (b a) = Some (bigsum 3 (fun j => ws j * zs j) / bigsum 3 ws).
Proof.
  intros w z ws zs Hw Hz N. unfold mean3. assert (S := xsum_val 3 w ws Hw). rewrite S.
  destruct (Reqb (bigsum 3 ws) 0) eqn:E; [apply Reqb_true in E; contradiction|].
  eexists; split; [reflexivity|]. intros a. apply xval_xdiv; [|exact S|exact N].
  apply xsum_val. intros j L. apply xval_xmul; [apply Hw, L|apply Hz, L].
Qed.
Lemma mean3_wls : solves_wls 3 1 (fun _ _ => 1) mean3.
Proof.
  intros w z ws zs b Hw P Hz E.
  assert (N : bigsum 3 ws <> 0).
  { intros N. unfold mean3 in E. rewrite (xsum_val 3 w ws Hw), N in E.
    destruct (Reqb 0 0) eqn:Q; [discriminate|]. apply Reqb_false in Q. lra. }
  destruct (mean3_val w z ws zs Hw Hz N) as [b' [E' V]]. assert (b' = b) by congruence. subst b'.
  exists (fun _ => bigsum 3 (fun j => ws j * zs j) / bigsum 3 ws). split; [intros a _; apply V|].
  intros a _. rewrite !bigsum3 in *. cbn [bigsum]. field. exact N.
Qed.
(** Three points; symmetric weights 1/2, 1/4, 1/3 *)
Definition wt3 (i j : nat) : R :=
  match i, j with
  | 0%nat, 1%nat | 1%nat, 0%nat => 1 / 2
  | 0%nat, 2%nat | 2%nat, 0%nat => 1 / 4
  | 1%nat, 2%nat | 2%nat, 1%nat => 1 / 3
  | _, _ => 1
  end.
Definition y3 (v : R) (i : nat) : R := match i with 0%nat => v | 1%nat => 0 | _ => 1 end.
Definition lead (v : R) : R := ln (v + 1 / 10) + (v - (v + 1 / 10)) / (v + 1 / 10).
Definition A0 : R := lead 0.
Definition A1 : R := lead 1.
Lemma lead_differ : A0 < A1.
Proof.
  unfold A0, A1, lead. assert (ln (0 + 1 / 10) < ln (1 + 1 / 10)) by (apply ln_increasing; lra). lra.
Qed.
(** eta of point 0 after one round *)
Definition eta0 (u : R) : R :=
  let s := 1 / 2 * exp ((1 / 2 * u + 1 / 3 * A1) / (5 / 6)) in
  let t := 1 / 4 * exp ((1 / 4 * u + 1 / 3 * A0) / (7 / 12)) in
  (s * A0 + t * A1) / (s + t).
Lemma eta_differ : eta0 A0 <> eta0 A1.
Proof.
  unfold eta0; cbv zeta.
  set (e1 := (1 / 2 * A0 + 1 / 3 * A1) / (5 / 6)). set (e2 := (1 / 4 * A0 + 1 / 3 * A0) / (7 / 12)).
  set (e3 := (1 / 2 * A1 + 1 / 3 * A1) / (5 / 6)). set (e4 := (1 / 4 * A1 + 1 / 3 * A0) / (7 / 12)).
  pose proof (exp_pos e1). pose proof (exp_pos e2). pose proof (exp_pos e3). pose proof (exp_pos e4).
  intros E.
  assert (Q : (exp e1 * exp e4 - exp e3 * exp e2) * (A0 - A1) = 0).
  { apply (f_equal (fun v => v * ((1 / 2 * exp e1 + 1 / 4 * exp e2) * (1 / 2 * exp e3 + 1 / 4 * exp e4)))) in E.
    field_simplify in E; [|lra|lra]. nra. }
  pose proof lead_differ.
  assert (Z : exp e1 * exp e4 = exp e3 * exp e2).
  { apply Rmult_integral in Q. destruct Q; lra. }
  rewrite <- !exp_plus in Z. apply exp_inv in Z. unfold e1, e2, e3, e4 in Z. lra.
Qed.
Definition mu0 (v : R) : xvec := fun i => XF (y3 v i + 1 / 10).
Definition nu0 (v : R) : xvec := fun i => xln (XF (y3 v i + 1 / 10)).
Lemma start_adj : forall v, 0 <= v -> numbers 3 (adjusted Poisson (y3 v) (nu0 v) (mu0 v)) (fun i => lead (y3 v i)).
Proof.
  intros v V i L. assert (P : 0 <= y3 v i) by (destruct i as [|[|i]]; cbn; lra).
  unfold adjusted, lead, nu0, mu0. apply xval_xadd; [apply xval_xln; [reflexivity|lra]|].
  refine (xval_xdiv _ (XF _) _ _ _ eq_refl _); [|lra]. exact (xval_xsub (XF _) (XF _) _ _ eq_refl eq_refl).
Qed.
Lemma reg3 : forall w2 z ws zs, numbers 3 w2 ws -> (forall j, (j < 3)%nat -> 0 < ws j) -> numbers 3 z zs ->
  exists e, regress_with 3 1 (fun _ _ => 1) mean3 (loo wt3) w2 z = Ok e /\
    forall i, (i < 3)%nat -> xval (e i) = Some (bigsum 3 (fun j => lw wt3 ws i j * zs j) / bigsum 3 (lw wt3 ws i)).
Proof.
  intros w2 z ws zs Hw P Hz. unfold regress_with.
  assert (G : forall i, (i < 3)%nat -> bigsum 3 (lw wt3 ws i) <> 0).
  { intros i L. pose proof (P 0%nat ltac:(lia)). pose proof (P 1%nat ltac:(lia)). pose proof (P 2%nat ltac:(lia)).
    rewrite bigsum3. destruct i as [|[|[|i]]]; [| | |lia]; unfold lw; cbn [Nat.eqb wt3]; lra. }
  destruct (each_total 3 (fun i => mean3 (fun j => xmul (loo wt3 i j) (w2 j)) z)) as [b Eb].
  { intros i L. destruct (mean3_val _ z _ zs (lw_numbers 3 wt3 w2 ws i Hw) Hz (G i L)) as [b [E _]]. eauto. }
  rewrite Eb. cbn [obind]. eexists; split; [reflexivity|]. intros i L. unfold xdot.
  assert (Ei := each_ok _ _ _ Eb i L). cbv beta in Ei.
  destruct (mean3_val _ z _ zs (lw_numbers 3 wt3 w2 ws i Hw) Hz (G i L)) as [b' [E' V]].
  assert (Q : b' = b i) by congruence. rewrite <- Q.
  rewrite (xsum_val 1 _ (fun _ => bigsum 3 (fun j => lw wt3 ws i j * zs j) / bigsum 3 (lw wt3 ws i))).
  - cbn [bigsum]. f_equal; ring.
  - intros a _. rewrite (xval_xmul (XF 1) _ 1 _ eq_refl (V a)). f_equal; ring.
Qed.
Lemma loo_run : forall v, 0 <= v -> exists m,
  cv_means Poisson 3 1 (fun _ _ => 1) (y3 v) mean3 (fun _ => XF (-1)) (1 / 100000) wt3 1 (fun _ => XF 0) = Ok m /\
  xval (m 0%nat) = Some (exp (eta0 (lead v))).
Proof.
  intros v V.
  assert (N1 : numbers 3 (fun _ => XF 1) (fun _ => 1)) by (intros j _; reflexivity).
  destruct (reg3 (fun _ => XF 1) _ _ _ N1 ltac:(intros; lra) (start_adj v V)) as [e [E H]].
  set (ws := fun i => exp (bigsum 3 (fun j => lw wt3 (fun _ => 1) i j * lead (y3 v j)) / bigsum 3 (lw wt3 (fun _ => 1) i))).
  assert (N2 : numbers 3 (means Poisson e) ws).
  { intros i L. unfold means. apply xval_xexp, H, L. }
  destruct (reg3 (means Poisson e) _ _ _ N2 ltac:(intros; apply exp_pos) (start_adj v V)) as [e2 [E2 H2]].
  exists (means Poisson e2). split.
  - unfold cv_means, irls_run; cbv zeta.
    change (fun i => XF (y3 v i + 1 / 10)) with (mu0 v). change (fun i => xln (XF (y3 v i + 1 / 10))) with (nu0 v).
    cbn [irls_loop]. rewrite E. cbn [obind].
    match goal with |- context [if ?c then _ else _] => assert (C : c = false) end.
    { rewrite (xltb_val _ _ 1 (1 / 100000)); [apply Rltb_false; lra| |reflexivity].
      assert (X : xval (xdiv (xsub (XF 0) (XF (-1))) (XF (-1))) = Some ((0 - -1) / -1)).
      { refine (xval_xdiv _ (XF (-1)) _ _ _ eq_refl _); [exact (xval_xsub (XF 0) (XF (-1)) _ _ eq_refl eq_refl)|lra]. }
      rewrite (xval_xabs _ _ X). f_equal. replace ((0 - -1) / -1) with (- (1)) by field. rewrite Rabs_Ropp. apply Rabs_R1. }
    rewrite C. cbn [irls_loop obind wt2 yadj]. cbn [working].
    change (fun i => means Poisson e i) with (means Poisson e) in *.
    unfold working. change (fun i => means Poisson e i) with (means Poisson e).
    rewrite E2. reflexivity.
  - unfold means. apply xval_xexp. rewrite (H2 0%nat ltac:(lia)). f_equal.
    unfold eta0; cbv zeta. unfold lw, ws. rewrite !bigsum3. unfold lw; cbn [Nat.eqb wt3 y3].
    fold A0 A1.
    replace (1 / 2 * exp ((1 / 2 * lead v + 1 / 3 * A1) / (5 / 6))) with
      (1 / 2 * exp ((1 / 2 * 1 * lead v + 0 * A0 + 1 / 3 * 1 * A1) / (1 / 2 * 1 + 0 + 1 / 3 * 1))) by (do 2 f_equal; field).
    replace (1 / 4 * exp ((1 / 4 * lead v + 1 / 3 * A0) / (7 / 12))) with
      (1 / 4 * exp ((1 / 4 * 1 * lead v + 1 / 3 * 1 * A0 + 0 * A1) / (1 / 4 * 1 + 1 / 3 * 1 + 0))) by (do 2 f_equal; field).
    f_equal; ring.
Qed.
Lemma loo_witness : exists n p x (solve : xvec -> xvec -> outcome xvec) llik tol wt maxiter y y' m m' v v',
  solves_wls n p x solve /\ (forall i j, (i < n)%nat -> (j < n)%nat -> 0 < wt i j /\ wt i j = wt j i) /\
  valid_response Poisson n y /\ valid_response Poisson n y' /\ (forall i, i <> 0%nat -> y i = y' i) /\
  cv_means Poisson n p x y solve llik tol wt maxiter (fun _ => XF 0) = Ok m /\
  cv_means Poisson n p x y' solve llik tol wt maxiter (fun _ => XF 0) = Ok m' /\
  xval (m 0%nat) = Some v /\ xval (m' 0%nat) = Some v' /\ v <> v'.
Proof.
  destruct (loo_run 0 ltac:(lra)) as [m [E V]]. destruct (loo_run 1 ltac:(lra)) as [m' [E' V']].
  exists 3%nat, 1%nat, (fun _ _ => 1), mean3, (fun _ => XF (-1)), (1 / 100000), wt3, 1%nat, (y3 0), (y3 1), m, m', (exp (eta0 A0)), (exp (eta0 A1)).
  split; [exact mean3_wls|]. split.
  { intros [|[|[|i]]] [|[|[|j]]] Li Lj; try lia; cbn; lra. }
  split; [intros [|[|[|i]]] L; cbn; try lia; lra|]. split; [intros [|[|[|i]]] L; cbn; try lia; lra|].
  split; [intros [|i] N; [contradiction|reflexivity]|].
  split; [exact E|]. split; [exact E'|]. split; [exact V|]. split; [exact V'|].
  intros Q. apply exp_inv in Q. exact (eta_differ Q).
Qed.

(** ** Diagnostics *)
Lemma ggwr_diag_main : forall n trS dev nulldev aic aicc d r2, nulldev <> 0 -> INR n - trS - 1 <> 0 ->
  ggwr_diagnostic n trS dev nulldev = (aic, aicc, d, r2) ->
  xval aic = Some (dev + 2 * trS) /\ xval aicc = Some (dev + 2 * trS + 2 * trS * (trS + 1) / (INR n - trS - 1)) /\
  d = dev /\ xval r2 = Some (1 - dev / nulldev).
Proof.
  intros n trS dev nulldev aic aicc d r2 N1 N2 E. unfold ggwr_diagnostic in E; cbv zeta in E.
  injection E as <- <- <- <-. split; [reflexivity|]. split; [|split; [reflexivity|]].
  - refine (xval_xadd (XF _) _ _ _ eq_refl _). refine (xval_xdiv (XF _) (XF _) _ _ eq_refl eq_refl N2).
  - refine (xval_xsub (XF _) _ _ _ eq_refl _). refine (xval_xdiv (XF _) (XF _) _ _ eq_refl eq_refl N1).
Qed.
Local Open Scope Z_scope.
Lemma u64_small : forall z, 0 <= z < 2 ^ 64 -> u64 z = z.
Proof. intros z H; unfold u64; apply Z.mod_small, H. Qed.
Lemma glm_term_main : forall n p, word n -> 2 * Z.of_nat p * (Z.of_nat p + 1) < 2 ^ 64 ->
  glm_aicc_term n p = if (n =? p + 1)%nat then UB
    else Ok (if (p + 1 <? n)%nat then 2 * Z.of_nat p * (Z.of_nat p + 1) / (Z.of_nat n - Z.of_nat p - 1)
             else 2 * Z.of_nat p * (Z.of_nat p + 1) / (2 ^ 64 - (Z.of_nat p + 1 - Z.of_nat n))).
Proof.
  intros n p Hn Hp. unfold word in Hn. unfold glm_aicc_term; cbv zeta.
  assert (P : u64 (2 * Z.of_nat p * (Z.of_nat p + 1)) = 2 * Z.of_nat p * (Z.of_nat p + 1)) by (apply u64_small; nia).
  rewrite P.
  assert (Q : Z.of_nat p + 1 < 2 ^ 64) by nia.
  destruct (Nat.eqb_spec n (p + 1)) as [->|N].
  - replace (Z.of_nat (p + 1) - Z.of_nat p - 1) with 0 by lia. reflexivity.
  - destruct (Nat.ltb_spec (p + 1) n) as [L|L].
    + rewrite u64_small by lia. destruct (Z.eqb_spec (Z.of_nat n - Z.of_nat p - 1) 0); [lia|reflexivity].
    + assert (U : u64 (Z.of_nat n - Z.of_nat p - 1) = 2 ^ 64 - (Z.of_nat p + 1 - Z.of_nat n)).
      { unfold u64. symmetry. apply (Z.mod_unique_pos _ _ (-1)); lia. }
      rewrite U. destruct (Z.eqb_spec (2 ^ 64 - (Z.of_nat p + 1 - Z.of_nat n)) 0); [lia|reflexivity].
Qed.
Local Open Scope R_scope.
Lemma floor_div : forall a b, (0 < b)%Z -> IZR (a / b) <= IZR a / IZR b < IZR (a / b) + 1.
Proof.
  intros a b P. pose proof (Z.div_mod a b ltac:(lia)) as E. pose proof (Z.mod_pos_bound a b P) as B.
  assert (PB : 0 < IZR b) by (apply IZR_lt, P).
  assert (E' : IZR a = IZR b * IZR (a / b) + IZR (a mod b)) by (rewrite <- mult_IZR, <- plus_IZR, <- E; reflexivity).
  assert (B1 : 0 <= IZR (a mod b)) by (apply IZR_le; lia). assert (B2 : IZR (a mod b) < IZR b) by (apply IZR_lt; lia).
  replace (IZR a / IZR b) with (IZR (a / b) + IZR (a mod b) / IZR b) by (rewrite E'; field; lra).
  assert (0 <= IZR (a mod b) / IZR b) by (apply Rmult_le_pos; [lra|left; apply Rinv_0_lt_compat, PB]).
  assert (IZR (a mod b) / IZR b < 1) by (apply (Rmult_lt_reg_r (IZR b)); [exact PB|]; field_simplify; lra).
  lra.
Qed.
Lemma glm_diag_main : forall n p nulldev dev, word n -> (2 * Z.of_nat p * (Z.of_nat p + 1) < 2 ^ 64)%Z -> nulldev <> 0 ->
  (p + 1 < n)%nat ->
  exists aic aicc r2, glm_diagnostic n p nulldev dev = Ok (aic, aicc, nulldev, dev, r2) /\
    aic = dev + 2 * INR p /\ xval r2 = Some (1 - dev / nulldev) /\
    aicc <= aic + 2 * INR p * (INR p + 1) / (INR n - INR p - 1) < aicc + 1 /\
    (exists k : Z, aicc = aic + IZR k) /\
    (Nat.divide (n - p - 1) (2 * p * (p + 1)) -> aicc = aic + 2 * INR p * (INR p + 1) / (INR n - INR p - 1)).
Proof.
  intros n p nulldev dev Hn Hp N L. unfold glm_diagnostic; cbv zeta. rewrite (glm_term_main n p Hn Hp).
  destruct (Nat.eqb_spec n (p + 1)); [lia|]. destruct (Nat.ltb_spec (p + 1) n); [|lia]. cbn [obind].
  set (q := (2 * Z.of_nat p * (Z.of_nat p + 1) / (Z.of_nat n - Z.of_nat p - 1))%Z).
  assert (A : IZR (u64 (2 * Z.of_nat p)) = 2 * INR p).
  { rewrite u64_small by nia. rewrite mult_IZR, <- INR_IZR_INZ. reflexivity. }
  assert (F := floor_div (2 * Z.of_nat p * (Z.of_nat p + 1)) (Z.of_nat n - Z.of_nat p - 1) ltac:(lia)). fold q in F.
  assert (RN : IZR (2 * Z.of_nat p * (Z.of_nat p + 1)) = 2 * INR p * (INR p + 1)) by (rewrite !mult_IZR, plus_IZR, <- INR_IZR_INZ; reflexivity).
  assert (RD : IZR (Z.of_nat n - Z.of_nat p - 1) = INR n - INR p - 1) by (rewrite !minus_IZR, <- !INR_IZR_INZ; reflexivity).
  rewrite RN, RD in F.
  do 3 eexists. split; [reflexivity|]. rewrite A. split; [reflexivity|]. split.
  { refine (xval_xsub (XF _) _ _ _ eq_refl _). refine (xval_xdiv (XF _) (XF _) _ _ eq_refl eq_refl N). }
  split; [lra|]. split; [eauto|].
  intros [k Hk]. f_equal.
  assert (PD : (0 < Z.of_nat n - Z.of_nat p - 1)%Z) by lia.
  assert (EZ : (2 * Z.of_nat p * (Z.of_nat p + 1) = Z.of_nat k * (Z.of_nat n - Z.of_nat p - 1))%Z).
  { apply (f_equal Z.of_nat) in Hk. rewrite !Nat2Z.inj_mul, Nat2Z.inj_add, !Nat2Z.inj_sub in Hk by lia. lia. }
  unfold q. rewrite EZ, Z.div_mul by lia. rewrite <- RN, EZ, mult_IZR, RD. field. rewrite <- RD. apply IZR_lt in PD. lra.
Qed.
Lemma glm_diag_refuted : 
  (exists n p nulldev dev aic aicc r2, (p + 1 < n)%nat /\ glm_diagnostic n p nulldev dev = Ok (aic, aicc, nulldev, dev, r2) /\
     aicc <> aic + 2 * INR p * (INR p + 1) / (INR n - INR p - 1)) /\
  (forall n p nulldev dev, n = (p + 1)%nat -> glm_diagnostic n p nulldev dev = UB).
Proof.
  split.
  - exists 10%nat, 2%nat, 1, 1, (1 + 4), (1 + 4 + 1). eexists. split; [lia|]. split.
    + unfold glm_diagnostic; cbv zeta. change (glm_aicc_term 10 2) with (Ok 1%Z). cbn [obind].
      change (u64 (2 * Z.of_nat 2)) with 4%Z. reflexivity.
    + cbn [INR]. lra.
  - intros n p nulldev dev ->. unfold glm_diagnostic, glm_aicc_term; cbv zeta.
    replace (Z.of_nat (p + 1) - Z.of_nat p - 1)%Z with 0%Z by lia. reflexivity.
Qed.
Lemma regdata_main : forall ops, mHas (reg_run ops) = false.
Proof.
  intros ops; unfold reg_run. assert (G : forall s, mHas s = false -> mHas (fold_left reg_step ops s) = false).
  { induction ops as [|[v|d] t IH]; intros s H; [exact H| |]; apply IH; exact H. }
  apply G; reflexivity.
Qed.
Lemma regdata_lost : forall d v, mData (reg_run [SetData d; SetHas v]) = [[if v then 1 else 0]].
Proof. reflexivity. Qed.
Lemma regdata_last : forall ops d, mData (reg_run (ops ++ [SetData d])) = d.
Proof. intros ops d; unfold reg_run. rewrite fold_left_app. reflexivity. Qed.
Lemma local_diag_main : forall n trS dev nulldev aic aicc d r2, nulldev <> 0 -> INR n - trS - 1 <> 0 ->
  ggwr_diagnostic n trS dev nulldev = (aic, aicc, d, r2) ->
  xval aic = Some (dev + 2 * trS) /\ xval aicc = Some (dev + 2 * trS + 2 * trS * (trS + 1) / (INR n - trS - 1)) /\
  d = dev /\ xval r2 = Some (1 - dev / nulldev) /\
  (0 <= dev -> 0 < nulldev -> 1 - dev / nulldev <= 1 /\ (1 - dev / nulldev = 1 <-> dev = 0)).
Proof.
  intros n trS dev nulldev aic aicc d r2 N1 N2 E.
  destruct (ggwr_diag_main _ _ _ _ _ _ _ _ N1 N2 E) as (A & B & C & D).
  split; [exact A|]. split; [exact B|]. split; [exact C|]. split; [exact D|]. intros P Q.
  assert (I := Rinv_0_lt_compat _ Q). unfold Rdiv. split; [nra|]. split.
  - intros H. assert (Z : dev * / nulldev = 0) by lra. apply Rmult_integral in Z. destruct Z; lra.
  - intros ->; lra.
Qed.
Lemma cv_case : solves_wls 3 1 (fun _ _ => 1) mean3 /\ valid_response Poisson 3 (y3 1) /\ exists c,
  cv_criterion Poisson 3 1 (fun _ _ => 1) (y3 1) mean3 (fun _ => XF (-1)) (1 / 100000) wt3 1 (fun _ => XF 0) = Ok c.
Proof.
  split; [exact mean3_wls|]. split; [intros [|[|[|i]]] L; cbn; try lia; lra|].
  destruct (loo_run 1 ltac:(lra)) as [m [E _]]. unfold cv_criterion. rewrite E. cbn [obind]; cbv zeta. eauto.
Qed.
Lemma diag_case : word 10 /\ (2 * Z.of_nat 2 * (Z.of_nat 2 + 1) < 2 ^ 64)%Z /\ (2 + 1 < 10)%nat /\
  exists aic aicc d r2, ggwr_diagnostic 10 3 5 8 = (aic, aicc, d, r2).
Proof. split; [unfold word; lia|]. split; [lia|]. split; [lia|]. do 4 eexists; reflexivity. Qed.
