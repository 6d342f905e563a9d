From Coq Require Import Reals Bool List Arith Lia Lra Psatz Permutation.
From Verif Require Import Outcome XReal XRealFacts Sums DiagModel DiagProofs OmpModel OmpSpec OmpProofs GlmModel GlmSpec.
Import ListNotations.
Local Open Scope R_scope.

Lemma eps_pos : 0 < eps.
Proof. unfold eps. apply Rmult_lt_0_compat; [lra|]. apply Rinv_0_lt_compat, pow_lt; lra. Qed.
Lemma eps_small : eps < 1.
Proof.
  unfold eps. apply Rmult_lt_reg_r with (10 ^ 22); [apply pow_lt; lra|].
  unfold Rdiv. rewrite Rmult_assoc, Rinv_l by (apply pow_nonzero; lra). simpl; lra.
Qed.
Lemma xval_xln : forall x a, xval x = Some a -> 0 < a -> xval (xln x) = Some (ln a).
Proof.
  exact xln_pos.
Qed.

(** ** Links *)
Definition pinv (e : R) : R := Rmax (exp e) eps.
Lemma poisson_clamp : forall n eta es, numbers n eta es ->
  numbers n (poisson_linkinv n eta) (fun i => pinv (es i)).
Proof.
  intros n eta es H. unfold poisson_linkinv.
  destruct (forallb _ _) eqn:F.
  - rewrite forallb_forall in F. intros i L. specialize (F i). rewrite in_seq in F. assert (A := F ltac:(lia)).
    assert (V := xval_xexp _ _ (H i L)). rewrite (xleb_val _ (XF eps) _ eps V eq_refl) in A.
    apply negb_true_iff, Rleb_false in A. cbv beta zeta. rewrite V. unfold pinv. rewrite Rmax_left by lra. reflexivity.
  - intros i L. assert (V := xval_xexp _ _ (H i L)). rewrite (xltb_val (XF eps) _ eps _ eq_refl V). unfold pinv.
    destruct (Rltb eps (exp (es i))) eqn:E.
    + apply Rltb_true in E. rewrite V, Rmax_left by lra. reflexivity.
    + apply Rltb_false in E. rewrite Rmax_right by lra. reflexivity.
Qed.
Lemma poisson_muEta_eq : forall n eta, poisson_muEta n eta = poisson_linkinv n eta.
Proof. reflexivity. Qed.
Lemma pinv_pos : forall e, 0 < pinv e.
Proof. intros e; unfold pinv. apply Rlt_le_trans with (exp e); [apply exp_pos|apply Rmax_l]. Qed.
Lemma pinv_lim : forall e, eps < exp e -> derivable_pt_lim pinv e (pinv e).
Proof.
  intros e H. assert (B : pinv e = exp e) by (unfold pinv; apply Rmax_left; lra). rewrite B.
  intros z Pz. destruct (derivable_pt_lim_exp e z Pz) as [d D].
  assert (G : 0 < e - ln eps).
  { assert (ln eps < e); [|lra]. rewrite <- (ln_exp e). apply ln_increasing; [apply eps_pos|exact H]. }
  assert (P : 0 < Rmin d (e - ln eps)) by (apply Rmin_glb_lt; [apply cond_pos|exact G]).
  exists (mkposreal _ P). intros h Hh Lh. simpl in Lh.
  assert (L1 : Rabs h < d) by (apply Rlt_le_trans with (1 := Lh), Rmin_l).
  assert (L2 : Rabs h < e - ln eps) by (apply Rlt_le_trans with (1 := Lh), Rmin_r).
  assert (E : pinv (e + h) = exp (e + h)).
  { unfold pinv. apply Rmax_left. apply Rlt_le. apply Rle_lt_trans with (exp (ln eps)); [rewrite exp_ln; [lra|apply eps_pos]|].
    apply exp_increasing. apply Rabs_def2 in L2. lra. }
  rewrite E, B. apply D; assumption.
Qed.
Lemma pinv_lim0 : forall e, exp e < eps -> derivable_pt_lim pinv e 0 /\ pinv e = eps.
Proof.
  intros e H. assert (B : pinv e = eps) by (unfold pinv; apply Rmax_right; lra). split; [|exact B].
  assert (G : 0 < ln eps - e).
  { assert (e < ln eps); [|lra]. rewrite <- (ln_exp e). apply ln_increasing; [apply exp_pos|exact H]. }
  intros z Pz. exists (mkposreal _ G). intros h Hh Lh. simpl in Lh.
  assert (E : pinv (e + h) = eps).
  { unfold pinv. apply Rmax_right. apply Rlt_le. apply Rlt_le_trans with (exp (ln eps)); [|rewrite exp_ln; [lra|apply eps_pos]].
    apply exp_increasing. apply Rabs_def2 in Lh. lra. }
  rewrite E, B. replace ((eps - eps) / h - 0) with 0 by (field; exact Hh). rewrite Rabs_R0; exact Pz.
Qed.
Lemma poisson_roundtrip : forall n mu m, numbers n mu m -> (forall i, (i < n)%nat -> 0 < m i) ->
  numbers n (poisson_linkinv n (poisson_linkfun mu)) (fun i => Rmax (m i) eps).
Proof.
  intros n mu m H P. assert (A : numbers n (poisson_linkfun mu) (fun i => ln (m i))).
  { intros i L. apply xval_xln; auto. }
  intros i L. rewrite (poisson_clamp _ _ _ A i L). unfold pinv. rewrite exp_ln by auto. reflexivity.
Qed.

Definition binv (e : R) : R := exp e / (1 + exp e).
Definition bder (e : R) : R := exp e / ((1 + exp e) * (1 + exp e)).
Lemma binomial_linkinv_val : forall n eta es, numbers n eta es ->
  numbers n (binomial_linkinv eta) (fun i => binv (es i)).
Proof.
  intros n eta es H i L. unfold binomial_linkinv; cbv zeta. assert (V := xval_xexp _ _ (H i L)).
  assert (P := exp_pos (es i)).
  apply xval_xdiv; [exact V| |lra]. apply xval_xadd; [reflexivity|exact V].
Qed.
Lemma binomial_muEta_val : forall n eta es, numbers n eta es ->
  numbers n (binomial_muEta eta) (fun i => bder (es i)).
Proof.
  intros n eta es H i L. unfold binomial_muEta; cbv zeta. assert (V := xval_xexp _ _ (H i L)).
  assert (P := exp_pos (es i)).
  apply xval_xdiv; [exact V| |nra]. apply xval_xmul; apply xval_xadd; try reflexivity; exact V.
Qed.
Lemma binv_range : forall e, 0 < binv e < 1.
Proof.
  intros e; unfold binv. assert (P := exp_pos e). split.
  - apply Rmult_lt_0_compat; [exact P|apply Rinv_0_lt_compat; lra].
  - apply Rmult_lt_reg_r with (1 + exp e); [lra|]. unfold Rdiv. rewrite Rmult_assoc, Rinv_l by lra. lra.
Qed.
Lemma bder_pos : forall e, 0 < bder e.
Proof. intros e; unfold bder. assert (P := exp_pos e). apply Rmult_lt_0_compat; [exact P|apply Rinv_0_lt_compat; nra]. Qed.
Lemma bder_binv : forall e, bder e = binv e * (1 - binv e).
Proof. intros e; unfold bder, binv. assert (P := exp_pos e). field. lra. Qed.
Lemma binv_lim : forall e, derivable_pt_lim binv e (bder e).
Proof.
  intros e. assert (P := exp_pos e).
  assert (D := derivable_pt_lim_div exp (fun x => 1 + exp x) e (exp e) (0 + exp e)).
  unfold bder. replace (exp e / ((1 + exp e) * (1 + exp e))) with
    ((exp e * (1 + exp e) - (0 + exp e) * exp e) / Rsqr (1 + exp e)) by (unfold Rsqr; field; lra).
  apply D.
  - apply derivable_pt_lim_exp.
  - apply (derivable_pt_lim_plus (fct_cte 1) exp); [apply derivable_pt_lim_const|apply derivable_pt_lim_exp].
  - lra.
Qed.
Lemma binomial_roundtrip : forall n mu m, numbers n mu m -> (forall i, (i < n)%nat -> 0 < m i < 1) ->
  numbers n (binomial_linkinv (binomial_linkfun mu)) m.
Proof.
  intros n mu m H P.
  assert (A : numbers n (binomial_linkfun mu) (fun i => ln (m i / (1 - m i)))).
  { intros i L. assert (Q := P i L). apply xval_xln.
    - apply xval_xdiv; [apply H, L| |lra]. apply xval_xsub; [reflexivity|apply H, L].
    - apply Rmult_lt_0_compat; [lra|apply Rinv_0_lt_compat; lra]. }
  intros i L. rewrite (binomial_linkinv_val _ _ _ A i L). f_equal. unfold binv.
  assert (Q := P i L). rewrite exp_ln by (apply Rmult_lt_0_compat; [lra|apply Rinv_0_lt_compat; lra]).
  field. lra.
Qed.

(** ** Deviance *)
Definition klz (y m : R) : R := if Reqb y 0 then m else y * ln (y / m) - y + m.
Lemma ln_le : forall t, 0 < t -> ln t <= t - 1 /\ (ln t = t - 1 -> t = 1).
Proof.
  intros t P. destruct (Req_dec (ln t) 0) as [Z|N].
  - assert (t = 1). { rewrite <- (exp_ln t P), Z. apply exp_0. } subst. rewrite Z. split; [lra|auto].
  - assert (H := exp_ineq1 _ N). rewrite exp_ln in H by exact P. split; [lra|intros E; lra].
Qed.
Lemma kl_pos : forall y m, 0 < y -> 0 < m -> 0 <= y * ln (y / m) - y + m /\ (y * ln (y / m) - y + m = 0 <-> y = m).
Proof.
  intros y m Py Pm.
  assert (Q : 0 < m / y) by (apply Rmult_lt_0_compat; [lra|apply Rinv_0_lt_compat; lra]).
  destruct (ln_le (m / y) Q) as [A B].
  assert (E : ln (y / m) = - ln (m / y)).
  { rewrite <- ln_Rinv by exact Q. f_equal. field; lra. }
  assert (C : y * (m / y) = m) by (field; lra).
  rewrite E. split; [nra|]. split.
  - intros H. assert (D : ln (m / y) = m / y - 1).
    { apply Rmult_eq_reg_l with y; [|lra]. nra. }
    apply B in D. rewrite D in C. lra.
  - intros ->. replace (m / m) with 1 by (field; lra). rewrite ln_1. ring.
Qed.
Lemma klz_nonneg : forall y m, 0 <= y -> 0 < m -> 0 <= klz y m.
Proof.
  intros y m Hy Pm; unfold klz. destruct (Reqb y 0) eqn:E; [lra|]. apply Reqb_false in E. apply kl_pos; lra.
Qed.
Lemma klz_zero : forall y m, 0 <= y -> 0 < m -> (klz y m = 0 <-> m = y).
Proof.
  intros y m Hy Pm; unfold klz. destruct (Reqb y 0) eqn:E.
  - apply Reqb_true in E. split; lra.
  - apply Reqb_false in E. rewrite (proj2 (kl_pos y m ltac:(lra) Pm)). split; auto.
Qed.
Lemma term_val : forall y m mu, 0 < y -> 0 < m -> xval mu = Some m ->
  xval (xsub (xmul (XF y) (xln (xdiv (XF y) mu))) (xsub (XF y) mu)) = Some (y * ln (y / m) - (y - m)).
Proof.
  intros y m mu Py Pm H. apply xval_xsub; [|apply xval_xsub; [reflexivity|exact H]].
  apply xval_xmul; [reflexivity|]. apply xval_xln; [apply xval_xdiv; [reflexivity|exact H|lra]|].
  apply Rmult_lt_0_compat; [lra|apply Rinv_0_lt_compat; lra].
Qed.
Lemma poisson_dev_val : forall n y mu w m ws, numbers n mu m -> numbers n w ws ->
  (forall i, (i < n)%nat -> 0 <= y i) -> (forall i, (i < n)%nat -> 0 < m i) ->
  numbers n (poisson_devResids n y mu w) (fun i => 2 * (ws i * klz (y i) (m i))).
Proof.
  intros n y mu w m ws Hm Hw Hy Pm i L. unfold poisson_devResids; cbv zeta.
  apply xval_xmul; [reflexivity|].
  assert (T : 0 < y i -> xval (xmul (w i) (xsub (xmul (XF (y i)) (xln (xdiv (XF (y i)) (mu i)))) (xsub (XF (y i)) (mu i)))) = Some (ws i * klz (y i) (m i))).
  { intros P. rewrite (xval_xmul _ _ _ _ (Hw i L) (term_val (y i) (m i) (mu i) P (Pm i L) (Hm i L))).
    f_equal. unfold klz. destruct (Reqb (y i) 0) eqn:Z; [apply Reqb_true in Z; lra|]. ring. }
  destruct (forallb _ _) eqn:F.
  - apply T. rewrite forallb_forall in F. apply Rltb_true, F, in_seq; lia.
  - destruct (Rltb 0 (y i)) eqn:Z; [apply T, Rltb_true, Z|]. apply Rltb_false in Z.
    rewrite (xval_xmul _ _ _ _ (Hm i L) (Hw i L)). f_equal. unfold klz.
    assert (A := Hy i L). destruct (Reqb (y i) 0) eqn:Q; [ring|apply Reqb_false in Q; lra].
Qed.
(* y_log_y at numbers *)
Lemma y_log_y_val : forall y mu r m, xval y = Some r -> xval mu = Some m -> 0 <= r -> 0 < m ->
  xval (y_log_y y mu) = Some (klz r m + r - m).
Proof.
  intros y mu r m Hy Hm H0 P; unfold y_log_y, klz. rewrite Hy. destruct (Reqb r 0) eqn:E.
  - apply Reqb_true in E. simpl; f_equal; lra.
  - apply Reqb_false in E. rewrite (xval_xmul _ _ r (ln (r / m)) Hy).
    + f_equal; ring.
    + apply xval_xln; [apply xval_xdiv; auto; lra|]. apply Rmult_lt_0_compat; [lra|apply Rinv_0_lt_compat; lra].
Qed.
Lemma binomial_dev_val : forall n y mu w m ws, numbers n mu m -> numbers n w ws ->
  (forall i, (i < n)%nat -> 0 <= y i <= 1) -> (forall i, (i < n)%nat -> 0 < m i < 1) ->
  numbers n (binomial_devResids y mu w) (fun i => 2 * ws i * (klz (y i) (m i) + klz (1 - y i) (1 - m i))).
Proof.
  intros n y mu w m ws Hm Hw Hy Pm i L. unfold binomial_devResids.
  assert (A := Hy i L). assert (B := Pm i L).
  assert (V1 := y_log_y_val (XF (y i)) (mu i) (y i) (m i) eq_refl (Hm i L) ltac:(lra) ltac:(lra)).
  assert (V2 := y_log_y_val (xsub (XF 1) (XF (y i))) (xsub (XF 1) (mu i)) (1 - y i) (1 - m i)
    (xval_xsub (XF 1) (XF (y i)) 1 (y i) eq_refl eq_refl) (xval_xsub (XF 1) (mu i) 1 (m i) eq_refl (Hm i L)) ltac:(lra) ltac:(lra)).
  rewrite (xval_xmul _ _ _ _ (xval_xmul (XF 2) (w i) 2 (ws i) eq_refl (Hw i L)) (xval_xadd _ _ _ _ V1 V2)).
  f_equal; ring.
Qed.
Lemma two_klz : forall y m, 0 <= y <= 1 -> 0 < m < 1 -> 0 <= klz y m + klz (1 - y) (1 - m) /\
  (klz y m + klz (1 - y) (1 - m) = 0 <-> m = y).
Proof.
  intros y m Hy Pm. assert (A := klz_nonneg y m ltac:(lra) ltac:(lra)).
  assert (B := klz_nonneg (1 - y) (1 - m) ltac:(lra) ltac:(lra)). split; [lra|]. split.
  - intros H. apply (klz_zero y m); lra.
  - intros ->. assert (C := proj2 (klz_zero y y ltac:(lra) ltac:(lra)) eq_refl).
    assert (D := proj2 (klz_zero (1 - y) (1 - y) ltac:(lra) ltac:(lra)) eq_refl). lra.
Qed.
Lemma xsum_val : forall n f fs, numbers n f fs -> xval (xsum n f) = Some (bigsum n fs).
Proof.
  intros n f fs; unfold xsum. induction n as [|n IH]; intros H; [reflexivity|].
  rewrite seq_S, fold_left_app. cbn [fold_left plus bigsum].
  apply xval_xadd; [apply IH; intros i L; apply H; lia|apply H; lia].
Qed.
Lemma gw_dev_val : forall n y mu m, numbers n mu m -> (forall i, (i < n)%nat -> 0 <= y i) ->
  (forall i, (i < n)%nat -> 0 < m i) -> xval (gw_dev n y mu) = Some (bigsum n (fun i => 2 * klz (y i) (m i))).
Proof.
  intros n y mu m; unfold gw_dev. induction n as [|n IH]; intros H Hy Pm; [reflexivity|].
  rewrite seq_S, fold_left_app. cbn [fold_left plus bigsum].
  assert (A : xval (fold_left (fun d i => if Reqb (y i) 0 then xadd d (xmul (XF 2) (mu i))
    else xadd d (xmul (XF 2) (xadd (xmul (XF (y i)) (xsub (xln (xdiv (XF (y i)) (mu i))) (XF 1))) (mu i)))) (seq 0 n) (XF 0))
    = Some (bigsum n (fun i => 2 * klz (y i) (m i)))).
  { apply IH; intros i L; [apply H|apply Hy|apply Pm]; lia. }
  assert (V := H n ltac:(lia)). assert (Yn := Hy n ltac:(lia)). assert (Pn := Pm n ltac:(lia)).
  unfold klz at 2. destruct (Reqb (y n) 0) eqn:E.
  - apply xval_xadd; [exact A|]. apply xval_xmul; [reflexivity|exact V].
  - apply Reqb_false in E. apply xval_xadd; [exact A|].
    replace (2 * (y n * ln (y n / m n) - y n + m n)) with (2 * (y n * (ln (y n / m n) - 1) + m n)) by ring.
    apply xval_xmul; [reflexivity|]. apply xval_xadd; [|exact V]. apply xval_xmul; [reflexivity|].
    apply xval_xsub; [|reflexivity]. apply xval_xln; [apply xval_xdiv; [reflexivity|exact V|lra]|].
    apply Rmult_lt_0_compat; [lra|apply Rinv_0_lt_compat; lra].
Qed.
Lemma gw_dev_binomial_val : forall n y mu m, numbers n mu m -> (forall i, (i < n)%nat -> y i = 0 \/ y i = 1) ->
  (forall i, (i < n)%nat -> 0 < m i < 1) ->
  xval (gw_dev_binomial n y mu) = Some (bigsum n (fun i => 2 * (klz (y i) (m i) + klz (1 - y i) (1 - m i)))).
Proof.
  intros n y mu m H Hy Pm. unfold gw_dev_binomial; cbv zeta. apply xsum_val. intros i L.
  assert (V := H i L). assert (P := Pm i L).
  assert (E : xval (xadd (xsub (XF (y i)) (XF 1)) (mu i)) = Some (y i - 1 + m i)).
  { apply xval_xadd; [apply xval_xsub; reflexivity|exact V]. }
  assert (Hc : forall c, c <> 0 -> y i - 1 + m i = c ->
     xval (xln (xdiv (XF 1) (xmul (xadd (xsub (XF (y i)) (XF 1)) (mu i)) (xadd (xsub (XF (y i)) (XF 1)) (mu i))))) = Some (ln (1 / (c * c)))).
  { intros c Nc Ec. rewrite Ec in E. assert (0 < c * c) by nra. apply xval_xln.
    - apply xval_xdiv; [reflexivity|apply xval_xmul; exact E|lra].
    - apply Rmult_lt_0_compat; [lra|apply Rinv_0_lt_compat; lra]. }
  assert (Hl : forall c, 0 < c -> ln (1 / (c * c)) = - 2 * ln c).
  { intros c Pc. unfold Rdiv. rewrite Rmult_1_l, ln_Rinv by nra. rewrite ln_mult by exact Pc. ring. }
  unfold klz. destruct (Hy i L) as [Z|Z]; rewrite Z in *.
  - rewrite (Hc (m i - 1)) by lra. f_equal.
    replace ((m i - 1) * (m i - 1)) with ((1 - m i) * (1 - m i)) by ring. rewrite Hl by lra.
    rewrite (proj2 (Reqb_true 0 0) eq_refl). destruct (Reqb (1 - 0) 0) eqn:Q; [apply Reqb_true in Q; lra|].
    replace ((1 - 0) / (1 - m i)) with (/ (1 - m i)) by (field; lra). rewrite ln_Rinv by lra. ring.
  - rewrite (Hc (m i)) by lra. f_equal. rewrite Hl by lra.
    destruct (Reqb 1 0) eqn:Q; [apply Reqb_true in Q; lra|]. replace (1 - 1) with 0 by ring.
    rewrite (proj2 (Reqb_true 0 0) eq_refl).
    replace (1 / m i) with (/ m i) by (field; lra). rewrite ln_Rinv by lra. ring.
Qed.
