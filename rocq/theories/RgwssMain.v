(** Accuracy of rounded local means and variances. *)
From Coq Require Import Reals Bool List ZArith Lra Lia Permutation.
From Verif Require Import Outcome XReal XRealFacts Sums RoundModel RoundSpec RoundProofs RoundAcc RgwssModel RgwssSpec RgwssProofs.
Import ListNotations.
Local Open Scope R_scope.

Lemma adds_in n t j : adds n t -> In j (leaves t) -> (j < n)%nat.
Proof. intros A H. apply (Permutation_in _ A), in_seq in H. lia. Qed.
Lemma adds_sum n t f : adds n t -> lsumf f (leaves t) = bigsum n f.
Proof. intros A. rewrite (lsumf_perm f _ _ A). apply lsumf_seq. Qed.
Lemma adds_length n t : adds n t -> length (leaves t) = n.
Proof. intros A. rewrite (Permutation_length A). apply seq_length. Qed.
Lemma bs_le n f g : (forall j, (j < n)%nat -> f j <= g j) -> bigsum n f <= bigsum n g.
Proof. intros H. rewrite <- !lsumf_seq. apply lsumf_le. intros j Hj. apply in_seq in Hj. apply H. lia. Qed.
Lemma bs_ext n f g : (forall j, (j < n)%nat -> f j = g j) -> bigsum n f = bigsum n g.
Proof. intros H. apply Rle_antisym; apply bs_le; intros j Hj; rewrite H by exact Hj; lra. Qed.
Lemma bs_abs n f : Rabs (bigsum n f) <= bigsum n (fun j => Rabs (f j)).
Proof. rewrite <- !lsumf_seq. apply lsumf_abs. Qed.
Lemma bs_minus n f g : bigsum n f - bigsum n g = bigsum n (fun j => f j - g j).
Proof. rewrite <- !lsumf_seq. apply lsumf_minus. Qed.
Lemma bs_lin n c d f : bigsum n (fun j => c * f j + d) = c * bigsum n f + INR n * d.
Proof. rewrite <- !lsumf_seq, lsumf_lin, seq_length. reflexivity. Qed.
Lemma bs_scal n c f : bigsum n (fun j => c * f j) = c * bigsum n f.
Proof. induction n as [|n IH]; cbn [bigsum]; [lra|]. rewrite IH. ring. Qed.
Lemma bs_member n f k : (forall j, (j < n)%nat -> 0 <= f j) -> (k < n)%nat -> f k <= bigsum n f.
Proof.
  induction n as [|n IH]; intros H K; [lia|]. cbn [bigsum].
  assert (0 <= f n) by (apply H; lia). assert (P : 0 <= bigsum n f) by (apply Rle_trans with (bigsum n (fun _ => 0 * 0)); [rewrite (bs_scal n 0 (fun _ => 0)); lra|apply bs_le; intros; rewrite Rmult_0_l; apply H; lia]).
  destruct (Nat.eq_dec k n) as [->|D]; [lra|]. assert (f k <= bigsum n f) by (apply IH; [intros; apply H; lia|lia]). lra.
Qed.

Section P.
Variables (rn : R -> R) (big : R).
Hypothesis RN : rounding rn big.
Hypothesis FA : faithful rn.
Variables (n : nat) (w : nat -> R).
Hypothesis KW : kernel_weights n w.
Let S := bigsum n w.
Let N := INR n.
Lemma w_nonneg j : (j < n)%nat -> 0 <= w j <= 1. Proof. apply KW. Qed.
Lemma N_range : 1 <= N /\ N * e <= / 4096.
Proof.
  destruct KW as (_ & (j & Hj & _) & B). fold N in B. split; [apply (le_INR 1); lia|].
  assert (P := p2_pos (-52)). apply Rle_trans with (p2 40 * e); [apply Rmult_le_compat_r; unfold e; lra|].
  unfold e. rewrite <- p2_add. change (40 + -52)%Z with (-12)%Z. unfold p2. simpl. lra.
Qed.
Lemma e_N : 0 < e <= N * e.
Proof. destruct N_range as [N1 _]. assert (e0 := e_small). assert (1 * e <= N * e) by (apply Rmult_le_compat_r; lra). lra. Qed.
Lemma S_low : p2 (-400) <= S.
Proof. destruct KW as (A & (j & Hj & B) & _). apply Rle_trans with (w j); [exact B|]. apply bs_member; [intros; apply A; assumption|exact Hj]. Qed.
Lemma S_pos : 0 < S. Proof. assert (A := S_low). assert (B := p2_pos (-400)). lra. Qed.
Lemma S_high : S <= N.
Proof. unfold S. apply Rle_trans with (bigsum n (fun _ => 0 * 0 + 1)); [apply bs_le; intros j Hj; destruct (w_nonneg j Hj); lra|]. rewrite (bs_lin n 0 1 (fun _ => 0)). fold N. lra. Qed.
Lemma eta_S : eta <= e * S.
Proof.
  assert (A := S_low). assert (P := p2_pos (-52)). apply Rle_trans with (e * p2 (-400)); [|apply Rmult_le_compat_l; unfold e; lra].
  unfold e, eta. rewrite <- p2_add. apply p2_le. lia.
Qed.

Section T1.
Variable t1 : order.
Hypothesis T1 : adds n t1.
Let Sh := tsum rn w t1.
Lemma total_err : Rabs (Sh - S) <= 4 * N * e * S.
Proof.
  destruct N_range as [N1 N2]. assert (E := e_small). assert (X := tsum_err rn big RN FA w t1). cbv zeta in X.
  rewrite (adds_length _ _ T1), !(adds_sum _ _ _ T1) in X. fold N in X. fold S in X. fold Sh in X.
  assert (Y : bigsum n (fun j => Rabs (w j)) = S) by (apply bs_ext; intros j Hj; apply Rabs_right; destruct (w_nonneg j Hj); lra).
  rewrite Y in X. specialize (X ltac:(lra)). assert (H := eta_S). assert (P := S_pos).
  assert (h0 := eta_pos). assert (0 < e * S) by nra.
  assert (2 * (N - 1) * (e * S + eta) <= 2 * N * (e * S + e * S)) by (apply Rmult_le_compat; lra). lra.
Qed.
Lemma Sh_range : 1023 / 1024 * S <= Sh <= 1025 / 1024 * S.
Proof.
  destruct N_range as [N1 N2]. assert (E := total_err). assert (P := S_pos). assert (4 * N * e * S <= / 1024 * S) by nra.
  unfold Rabs in E. destruct (Rcase_abs (Sh - S)); lra.
Qed.
Definition om (j : nat) : R := w j / S.
Definition sh (j : nat) : R := rn (w j / Sh).
Lemma om_range j : (j < n)%nat -> 0 <= om j <= 1.
Proof.
  intros H. destruct (w_nonneg j H). assert (P := S_pos). unfold om. split.
  - apply Rmult_le_pos; [lra|left; apply Rinv_0_lt_compat; lra].
  - apply Rmult_le_reg_r with S; [lra|]. unfold Rdiv. rewrite Rmult_assoc, Rinv_l, Rmult_1_r, Rmult_1_l by lra.
    apply bs_member; [intros; apply w_nonneg; assumption|exact H].
Qed.
Lemma om_sum : bigsum n om = 1.
Proof.
  assert (P := S_pos). unfold om. rewrite (bs_ext n _ (fun j => / S * w j)) by (intros; unfold Rdiv; ring).
  rewrite bs_scal. fold S. field. lra.
Qed.
Lemma quot_err j : (j < n)%nat -> Rabs (w j / Sh - om j) <= 9 / 2 * N * e * om j /\ 0 <= w j / Sh <= 1025 / 1000 * om j.
Proof.
  intros H. destruct (om_range j H) as [O1 O2]. assert (P := S_pos). destruct Sh_range as [R1 R2]. assert (E := total_err).
  destruct N_range as [N1 N2]. assert (e0 := e_small).
  assert (Ph : 0 < Sh) by lra.
  assert (EQ : w j / Sh = om j * (S / Sh)) by (unfold om; field; lra).
  assert (Q : S / Sh <= 1025 / 1000).
  { apply Rmult_le_reg_r with Sh; [lra|]. unfold Rdiv at 1. rewrite Rmult_assoc, Rinv_l, Rmult_1_r by lra. lra. }
  assert (Q0 : 0 < S / Sh) by (apply Rdiv_lt_0_compat; lra).
  split; [|rewrite EQ; nra].
  replace (w j / Sh - om j) with (om j * ((S - Sh) / Sh)) by (rewrite EQ; field; lra).
  rewrite Rabs_mult, (Rabs_right (om j)) by lra. rewrite Rmult_comm. apply Rmult_le_compat_r; [lra|].
  unfold Rdiv at 1. rewrite Rabs_mult, Rabs_inv, (Rabs_right Sh), Rabs_minus_sym by lra.
  apply Rmult_le_reg_r with Sh; [lra|]. rewrite Rmult_assoc, Rinv_l, Rmult_1_r by lra.
  assert (0 < N * e) by nra. assert (N * e * S <= N * e * (9 / 8 * Sh)) by (apply Rmult_le_compat_l; lra). lra.
Qed.
Lemma share_err j : (j < n)%nat -> Rabs (sh j - om j) <= 6 * N * e * om j + eta.
Proof.
  intros H. destruct (quot_err j H) as [A B]. assert (C := rn_err rn big RN FA (w j / Sh)). fold (sh j) in C.
  destruct (om_range j H) as [O1 O2]. destruct N_range as [N1 N2]. assert (e0 := e_small).
  rewrite (Rabs_right (w j / Sh)) in C by lra.
  assert (T : Rabs (sh j - om j) <= Rabs (sh j - w j / Sh) + Rabs (w j / Sh - om j)).
  { replace (sh j - om j) with ((sh j - w j / Sh) + (w j / Sh - om j)) by ring. apply Rabs_triang. }
  assert (e * (w j / Sh) <= e * (1025 / 1000 * om j)) by (apply Rmult_le_compat_l; lra).
  assert (eN := e_N). assert (e * om j <= N * e * om j) by (apply Rmult_le_compat_r; lra). assert (0 <= e * om j) by (apply Rmult_le_pos; lra). lra.
Qed.
Lemma share_nonneg j : (j < n)%nat -> 0 <= sh j.
Proof. intros H. destruct (quot_err j H) as [A B]. apply (pos rn big RN). lra. Qed.

(** A weighted sum of numbers of magnitude at most Y. *)
Lemma wterm_err y Y j : (j < n)%nat -> Rabs (y j) <= Y ->
  Rabs (rn (sh j * y j) - om j * y j) <= 8 * N * e * Y * om j + (2 * Y + 1) * eta.
Proof.
  intros H HY. assert (A := share_err j H). assert (C := rn_err rn big RN FA (sh j * y j)).
  destruct (om_range j H) as [O1 O2]. destruct N_range as [N1 N2]. assert (e0 := e_small). assert (h0 := eta_pos). assert (y0 := Rabs_pos (y j)).
  assert (s0 := share_nonneg j H).
  assert (T : Rabs (rn (sh j * y j) - om j * y j) <= Rabs (rn (sh j * y j) - sh j * y j) + Rabs (sh j - om j) * Rabs (y j)).
  { rewrite <- Rabs_mult. replace (rn (sh j * y j) - om j * y j) with ((rn (sh j * y j) - sh j * y j) + (sh j - om j) * y j) by ring. apply Rabs_triang. }
  assert (D : Rabs (sh j - om j) * Rabs (y j) <= (6 * N * e * om j + eta) * Y) by (apply Rmult_le_compat; auto; apply Rabs_pos).
  assert (G : sh j <= 2 * om j + eta).
  { assert (X := Rle_abs (sh j - om j)). assert (6 * N * e * om j <= om j) by nra. lra. }
  assert (F : Rabs (sh j * y j) <= (2 * om j + eta) * Y) by (rewrite Rabs_mult, (Rabs_right (sh j)) by lra; apply Rmult_le_compat; auto).
  assert (e * Rabs (sh j * y j) <= e * ((2 * om j + eta) * Y)) by (apply Rmult_le_compat_l; lra).
  assert (eN := e_N). assert (e * om j * Y <= N * e * om j * Y) by (apply Rmult_le_compat_r; [lra|]; apply Rmult_le_compat_r; lra).
  assert (e * eta * Y <= 1 * eta * Y) by (apply Rmult_le_compat_r; [lra|]; apply Rmult_le_compat_r; lra). nra.
Qed.
Lemma tiny_terms Y : p2 (-850) <= Y -> N * ((2 * Y + 1) * eta) <= e * Y.
Proof.
  intros H. destruct KW as (_ & _ & B). fold N in B. destruct N_range as [N1 N2]. assert (h0 := eta_pos). assert (q0 := p2_pos (-850)).
  assert (X : N * eta <= p2 (-959)).
  { apply Rle_trans with (p2 40 * eta); [apply Rmult_le_compat_r; lra|]. unfold eta. rewrite <- p2_add. apply p2_le. lia. }
  assert (E1 : p2 (-959) <= / 4 * e) by (apply Rle_trans with (p2 (-54)); [apply p2_le; lia|right; unfold e; change (-54)%Z with (-2 + -52)%Z; rewrite p2_add; f_equal; unfold p2; simpl; lra]).
  assert (E2 : p2 (-959) <= / 4 * e * Y).
  { apply Rle_trans with (/ 4 * e * p2 (-850)); [|apply Rmult_le_compat_l; [assert (P := p2_pos (-52)); unfold e; lra|exact H]].
    apply Rle_trans with (p2 (-54) * p2 (-850)); [rewrite <- p2_add; apply p2_le; lia|right; f_equal; unfold e; change (-54)%Z with (-2 + -52)%Z; rewrite p2_add; f_equal; unfold p2; simpl; lra]. }
  assert (2 * Y * (N * eta) <= 2 * Y * (/ 4 * e)) by (apply Rmult_le_compat_l; lra).
  assert (e0 := e_small). assert (0 <= e * Y) by (apply Rmult_le_pos; lra). lra.
Qed.
Section W.
Variables (y : nat -> R) (Y : R) (t : order).
Hypothesis T : adds n t.
Hypothesis YB : forall j, (j < n)%nat -> Rabs (y j) <= Y.
Hypothesis YR : p2 (-850) <= Y <= p2 900.
Let a j := rn (sh j * y j).
Lemma terms_err : bigsum n (fun j => Rabs (a j - om j * y j)) <= 9 * N * e * Y.
Proof.
  apply Rle_trans with (bigsum n (fun j => 8 * N * e * Y * om j + (2 * Y + 1) * eta)).
  - apply bs_le. intros j Hj. apply wterm_err; auto.
  - rewrite bs_lin, om_sum. fold N. assert (X := tiny_terms Y (proj1 YR)). destruct N_range as [N1 N2]. assert (e0 := e_small).
    assert (q0 := p2_pos (-850)). assert (eN := e_N). assert (e * Y <= N * e * Y) by (apply Rmult_le_compat_r; lra). assert (0 <= e * Y) by (apply Rmult_le_pos; lra). lra.
Qed.
Lemma terms_abs : bigsum n (fun j => Rabs (a j)) <= 2 * Y.
Proof.
  assert (X := terms_err). destruct N_range as [N1 N2]. assert (e0 := e_small). assert (q0 := p2_pos (-850)).
  apply Rle_trans with (bigsum n (fun j => Rabs (a j - om j * y j)) + bigsum n (fun j => Y * om j)).
  - apply Rle_trans with (bigsum n (fun j => Rabs (a j - om j * y j) + Y * om j)).
    + apply bs_le. intros j Hj. destruct (om_range j Hj). assert (Z := YB j Hj).
      replace (a j) with ((a j - om j * y j) + om j * y j) at 1 by ring. eapply Rle_trans; [apply Rabs_triang|].
      rewrite (Rabs_mult (om j)), (Rabs_right (om j)) by lra. nra.
    + right. generalize n; intros k0; induction k0 as [|k IH]; cbn [bigsum]; lra.
  - rewrite bs_scal, om_sum. nra.
Qed.
Lemma wsum_err : Rabs (tsum rn a t - bigsum n (fun j => om j * y j)) <= 16 * N * e * Y.
Proof.
  destruct N_range as [N1 N2]. assert (e0 := e_small). assert (q0 := p2_pos (-850)).
  assert (X := tsum_err rn big RN FA a t). cbv zeta in X. rewrite (adds_length _ _ T), !(adds_sum _ _ _ T) in X. fold N in X.
  specialize (X ltac:(lra)). assert (Z := terms_abs).
  assert (A0 : Rabs (bigsum n a - bigsum n (fun j => om j * y j)) <= 9 * N * e * Y).
  { rewrite bs_minus. eapply Rle_trans; [apply bs_abs|]. exact terms_err. }
  assert (TR : Rabs (tsum rn a t - bigsum n (fun j => om j * y j)) <= Rabs (tsum rn a t - bigsum n a) + Rabs (bigsum n a - bigsum n (fun j => om j * y j))).
  { replace (tsum rn a t - bigsum n (fun j => om j * y j)) with ((tsum rn a t - bigsum n a) + (bigsum n a - bigsum n (fun j => om j * y j))) by ring. apply Rabs_triang. }
  assert (H : eta <= e * Y).
  { apply Rle_trans with (e * p2 (-850)); [unfold e, eta; rewrite <- p2_add; apply p2_le; lia|apply Rmult_le_compat_l; lra]. }
  assert (L : e * bigsum n (fun j => Rabs (a j)) + eta <= 3 * (e * Y)).
  { assert (e * bigsum n (fun j => Rabs (a j)) <= e * (2 * Y)) by (apply Rmult_le_compat_l; lra). lra. }
  assert (2 * (N - 1) * (e * bigsum n (fun j => Rabs (a j)) + eta) <= 2 * (N - 1) * (3 * (e * Y))) by (apply Rmult_le_compat_l; lra).
  assert (0 <= e * Y) by nra. nra.
Qed.
Lemma wsum_nonneg : (forall j, (j < n)%nat -> 0 <= y j) -> 0 <= tsum rn a t.
Proof.
  intros H. apply (tsum_nonneg rn big RN). intros j Hj. apply (adds_in _ _ _ T) in Hj. apply (pos rn big RN). apply Rmult_le_pos; [apply share_nonneg; exact Hj|auto].
Qed.
(** The doubles. *)
Variables (fw fy : nat -> xd).
Hypothesis FW : reads n fw w.
Hypothesis FY : reads n fy y.
Lemma total_val : xval (osum rn big fw t1) = Some Sh.
Proof.
  destruct N_range as [N1 N2]. assert (e0 := e_small). apply (osum_val rn big RN FA).
  - intros j Hj. apply FW, (adds_in _ _ _ T1), Hj.
  - rewrite (adds_length _ _ T1). fold N. lra.
  - rewrite (adds_sum _ _ _ T1). rewrite (bs_ext n _ w) by (intros j Hj; apply Rabs_right; destruct (w_nonneg j Hj); lra). fold S.
    assert (H := S_high). destruct KW as (_ & _ & B). fold N in B. assert (p2 40 <= p2 990) by (apply p2_le; lia). lra.
Qed.
Lemma share_val j : (j < n)%nat -> xval (r_share rn big t1 fw j) = Some (sh j).
Proof.
  intros H. destruct (quot_err j H) as [_ B]. destruct (om_range j H). destruct Sh_range. assert (P := S_pos).
  apply (v_div rn big RN 1); [lia|apply FW, H|exact total_val|lra|]. apply bnd_of. rewrite p2_1. lra.
Qed.
Lemma wterm_val j : (j < n)%nat -> xval (rmul rn big (r_share rn big t1 fw j) (fy j)) = Some (a j).
Proof.
  intros H. destruct (quot_err j H) as [_ B]. destruct (om_range j H). apply (v_mul rn big RN 901); [lia|apply share_val, H|apply FY, H|].
  change 901%Z with (1 + 900)%Z. apply bnd_mul; [|unfold bnd; assert (Z := YB j H); lra].
  apply (rbnd rn big RN); [lia|]. apply bnd_of. rewrite p2_1. lra.
Qed.
Lemma wsum_val : xval (osum rn big (fun j => rmul rn big (r_share rn big t1 fw j) (fy j)) t) = Some (tsum rn a t).
Proof.
  destruct N_range as [N1 N2]. assert (e0 := e_small). apply (osum_val rn big RN FA).
  - intros j Hj. apply wterm_val, (adds_in _ _ _ T), Hj.
  - rewrite (adds_length _ _ T). fold N. lra.
  - rewrite (adds_sum _ _ _ T). assert (X := terms_abs). assert (Z : p2 900 * 2 <= p2 990) by (rewrite <- p2_1, <- p2_add; apply p2_le; lia). lra.
Qed.
End W.

(** Means and variances. *)
Variables (x : nat -> R) (M : R) (t2 t3 : order) (fw fx : nat -> xd).
Hypothesis WI : within M n x.
Hypothesis T2 : adds n t2.
Hypothesis T3 : adds n t3.
Hypothesis FW : reads n fw w.
Hypothesis FX : reads n fx x.
Let m := mean_of n w x.
Let mh := tsum rn (fun j => rn (sh j * x j)) t2.
Lemma M_range : p2 (-850) <= M <= p2 900.
Proof. destruct WI as [[A B] _]. assert (p2 (-850) <= p2 (-400)) by (apply p2_le; lia). assert (p2 400 <= p2 900) by (apply p2_le; lia). lra. Qed.
Lemma mean_om : m = bigsum n (fun j => om j * x j).
Proof.
  assert (P := S_pos). unfold m, mean_of. fold S. rewrite (bs_ext n (fun j => om j * x j) (fun j => / S * (w j * x j))) by (intros; unfold om, Rdiv; ring).
  rewrite bs_scal. unfold Rdiv. ring.
Qed.
Lemma mean_val : xval (r_mean rn big t1 t2 fw fx) = Some mh.
Proof. apply (wsum_val x M t2 T2 (proj2 WI) M_range fw fx FW FX). Qed.
Lemma mean_err : Rabs (mh - m) <= 16 * N * e * M.
Proof. rewrite mean_om. apply (wsum_err x M t2 T2 (proj2 WI) M_range). Qed.
Lemma mean_abs : Rabs m <= M.
Proof.
  rewrite mean_om. eapply Rle_trans; [apply bs_abs|]. apply Rle_trans with (bigsum n (fun j => M * om j)); [|rewrite bs_scal, om_sum; lra].
  apply bs_le. intros j Hj. destruct (om_range j Hj). rewrite Rabs_mult, (Rabs_right (om j)) by lra. assert (Z := proj2 WI j Hj). nra.
Qed.
Let c j := rn (x j - mh).
Let y j := rn (c j * c j).
Let d j := x j - m.
Lemma M_pos : 0 < M. Proof. destruct WI as [[A _] _]. assert (P := p2_pos (-400)). lra. Qed.
Lemma eta_M : eta <= e * M /\ eta <= e * (M * M).
Proof.
  destruct WI as [[A _] _]. assert (P := p2_pos (-400)). assert (Q := p2_pos (-52)). split.
  - apply Rle_trans with (e * p2 (-400)); [unfold e, eta; rewrite <- p2_add; apply p2_le; lia|apply Rmult_le_compat_l; unfold e; lra].
  - apply Rle_trans with (e * (p2 (-400) * p2 (-400))); [unfold e, eta; rewrite <- !p2_add; apply p2_le; lia|apply Rmult_le_compat_l; [unfold e; lra|apply Rmult_le_compat; lra]].
Qed.
Lemma d_abs j : (j < n)%nat -> Rabs (d j) <= 2 * M.
Proof.
  intros H. assert (A := proj2 WI j H). assert (B := mean_abs). unfold d, Rminus. eapply Rle_trans; [apply Rabs_triang|]. rewrite Rabs_Ropp. lra.
Qed.
Lemma c_err j : (j < n)%nat -> Rabs (c j - d j) <= 20 * N * e * M.
Proof.
  intros H. assert (A := mean_err). assert (B := rn_err rn big RN FA (x j - mh)). fold (c j) in B. assert (D := d_abs j H). assert (P := M_pos).
  destruct eta_M as [E1 _]. destruct N_range as [N1 N2]. assert (e0 := e_small).
  assert (T : Rabs (x j - mh) <= Rabs (d j) + Rabs (mh - m)).
  { replace (x j - mh) with (d j + - (mh - m)) by (unfold d; ring). eapply Rle_trans; [apply Rabs_triang|]. rewrite Rabs_Ropp. lra. }
  assert (T' : Rabs (c j - d j) <= Rabs (c j - (x j - mh)) + Rabs (mh - m)).
  { replace (c j - d j) with ((c j - (x j - mh)) + - (mh - m)) by (unfold d; ring). eapply Rle_trans; [apply Rabs_triang|]. rewrite Rabs_Ropp. lra. }
  assert (U : Rabs (x j - mh) <= 201 / 100 * M) by nra.
  assert (e * Rabs (x j - mh) <= e * (201 / 100 * M)) by (apply Rmult_le_compat_l; lra).
  assert (eN := e_N). assert (e * M <= N * e * M) by (apply Rmult_le_compat_r; lra). assert (0 <= e * M) by (apply Rmult_le_pos; lra). lra.
Qed.
Lemma c_abs j : (j < n)%nat -> Rabs (c j) <= 201 / 100 * M.
Proof.
  intros H. assert (A := c_err j H). assert (D := d_abs j H). assert (P := M_pos). destruct N_range as [N1 N2].
  assert (Rabs (c j) <= Rabs (c j - d j) + Rabs (d j)) by (replace (c j) with ((c j - d j) + d j) at 1 by ring; apply Rabs_triang). nra.
Qed.
Lemma y_err j : (j < n)%nat -> Rabs (y j - d j * d j) <= 86 * N * e * (M * M).
Proof.
  intros H. assert (A := c_err j H). assert (C := c_abs j H). assert (D := d_abs j H). assert (P := M_pos). destruct eta_M as [_ E2]. destruct N_range as [N1 N2]. assert (e0 := e_small).
  assert (B := rn_err rn big RN FA (c j * c j)). fold (y j) in B.
  assert (T : Rabs (y j - d j * d j) <= Rabs (y j - c j * c j) + Rabs (c j - d j) * Rabs (c j + d j)).
  { rewrite <- Rabs_mult. replace (y j - d j * d j) with ((y j - c j * c j) + (c j - d j) * (c j + d j)) by ring. apply Rabs_triang. }
  assert (U : Rabs (c j + d j) <= 401 / 100 * M) by (eapply Rle_trans; [apply Rabs_triang|]; lra).
  assert (V : Rabs (c j - d j) * Rabs (c j + d j) <= 20 * N * e * M * (401 / 100 * M)) by (apply Rmult_le_compat; auto; apply Rabs_pos).
  assert (W : Rabs (c j * c j) <= 201 / 100 * M * (201 / 100 * M)) by (rewrite Rabs_mult; apply Rmult_le_compat; auto; apply Rabs_pos).
  assert (e * Rabs (c j * c j) <= e * (201 / 100 * M * (201 / 100 * M))) by (apply Rmult_le_compat_l; lra).
  assert (0 < e * (M * M)) by (apply Rmult_lt_0_compat; nra). assert (eN := e_N). assert (e * (M * M) <= N * e * (M * M)) by (apply Rmult_le_compat_r; nra). nra.
Qed.
Lemma y_abs j : (j < n)%nat -> Rabs (y j) <= 5 * (M * M).
Proof.
  intros H. assert (A := y_err j H). assert (D := d_abs j H). assert (P := M_pos). destruct N_range as [N1 N2].
  assert (B : Rabs (y j) <= Rabs (y j - d j * d j) + Rabs (d j * d j)) by (replace (y j) with ((y j - d j * d j) + d j * d j) at 1 by ring; apply Rabs_triang).
  rewrite (Rabs_mult (d j)) in B. assert (Rabs (d j) * Rabs (d j) <= 2 * M * (2 * M)) by (apply Rmult_le_compat; auto; apply Rabs_pos). nra.
Qed.
Lemma MM_range : p2 (-850) <= 5 * (M * M) <= p2 900.
Proof.
  destruct WI as [[A B] _]. assert (P := p2_pos (-400)). assert (Q := p2_pos 400). split.
  - apply Rle_trans with (p2 (-400) * p2 (-400)); [rewrite <- p2_add; apply p2_le; lia|]. assert (p2 (-400) * p2 (-400) <= M * M) by (apply Rmult_le_compat; lra). nra.
  - apply Rle_trans with (8 * (p2 400 * p2 400)).
    + assert (M * M <= p2 400 * p2 400) by (apply Rmult_le_compat; lra). nra.
    + replace 8 with (p2 3) by (unfold p2; simpl; lra). rewrite <- !p2_add. apply p2_le. lia.
Qed.
Let v := variance_of n w x.
Let vh := tsum rn (fun j => rn (sh j * y j)) t3.
Lemma c_val j : (j < n)%nat -> xval (rsub rn big (fx j) (r_mean rn big t1 t2 fw fx)) = Some (c j).
Proof.
  intros H. apply (v_sub rn big RN 500); [lia|apply FX, H|exact mean_val|].
  assert (A := mean_err). assert (D := d_abs j H). assert (P := M_pos). destruct N_range as [N1 N2]. destruct WI as [[_ B] _].
  assert (T : Rabs (x j - mh) <= Rabs (d j) + Rabs (mh - m)).
  { replace (x j - mh) with (d j + - (mh - m)) by (unfold d; ring). eapply Rle_trans; [apply Rabs_triang|]. rewrite Rabs_Ropp. lra. }
  unfold bnd. assert (Z : 4 * p2 400 <= p2 500) by (replace 4 with (p2 2) by (unfold p2; simpl; lra); rewrite <- p2_add; apply p2_le; lia). nra.
Qed.
Lemma y_val : reads n (fun j => rmul rn big (rsub rn big (fx j) (r_mean rn big t1 t2 fw fx)) (rsub rn big (fx j) (r_mean rn big t1 t2 fw fx))) y.
Proof.
  intros j H. apply (v_mul rn big RN 1000); [lia|apply c_val, H|apply c_val, H|].
  assert (C := c_abs j H). destruct WI as [[_ B] _]. assert (P := M_pos). apply (bnd_le (403 + 403)); [|lia]. 
  assert (Z : bnd 403 (c j)).
  { unfold bnd. replace (p2 403) with (8 * p2 400); [lra|]. change 403%Z with (3 + 400)%Z. rewrite p2_add. f_equal. unfold p2; simpl; lra. }
  apply bnd_mul; exact Z.
Qed.
Lemma var_val : xval (r_variance rn big t1 t2 t3 fw fx) = Some vh.
Proof. apply (wsum_val y (5 * (M * M)) t3 T3 y_abs MM_range fw _ FW y_val). Qed.
Lemma var_nonneg : 0 <= vh.
Proof. apply wsum_nonneg with (1 := T3). intros j H. apply (pos rn big RN). nra. Qed.
Lemma var_om : v = bigsum n (fun j => om j * (d j * d j)).
Proof.
  assert (P := S_pos). unfold v, variance_of. fold S. fold m.
  rewrite (bs_ext n (fun j => om j * (d j * d j)) (fun j => / S * (w j * (x j - m) ^ 2))) by (intros; unfold om, d, Rdiv; ring).
  rewrite bs_scal. unfold Rdiv. ring.
Qed.
Lemma var_err : Rabs (vh - v) <= 256 * N * e * (M * M).
Proof.
  rewrite var_om. assert (A := wsum_err y (5 * (M * M)) t3 T3 y_abs MM_range). fold vh in A. assert (P := M_pos). destruct N_range as [N1 N2]. assert (e0 := e_small).
  assert (B : Rabs (bigsum n (fun j => om j * y j) - bigsum n (fun j => om j * (d j * d j))) <= 86 * N * e * (M * M)).
  { rewrite bs_minus. eapply Rle_trans; [apply bs_abs|]. apply Rle_trans with (bigsum n (fun j => 86 * N * e * (M * M) * om j)); [|rewrite bs_scal, om_sum; lra].
    apply bs_le. intros j Hj. destruct (om_range j Hj). replace (om j * y j - om j * (d j * d j)) with ((y j - d j * d j) * om j) by ring.
    rewrite Rabs_mult, (Rabs_right (om j)) by lra. apply Rmult_le_compat_r; [lra|]. apply y_err, Hj. }
  assert (T : Rabs (vh - bigsum n (fun j => om j * (d j * d j))) <= Rabs (vh - bigsum n (fun j => om j * y j)) + Rabs (bigsum n (fun j => om j * y j) - bigsum n (fun j => om j * (d j * d j)))).
  { replace (vh - bigsum n (fun j => om j * (d j * d j))) with ((vh - bigsum n (fun j => om j * y j)) + (bigsum n (fun j => om j * y j) - bigsum n (fun j => om j * (d j * d j)))) by ring. apply Rabs_triang. }
  assert (0 < N * e * (M * M)) by (apply Rmult_lt_0_compat; nra). lra.
Qed.
End T1.
End P.
