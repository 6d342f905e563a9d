(** Accuracy of rounded cross products and residual sums of squares. *)
From Coq Require Import Reals Bool List ZArith Lra Lia Permutation.
From Verif Require Import Outcome XReal XRealFacts Sums RoundModel RoundSpec RoundProofs RoundAcc RgwssModel RgwssSpec RgwssProofs RgwssMain RnormModel RnormSpec.
Import ListNotations.
Local Open Scope R_scope.

Lemma Rabs_add3 a b c : Rabs (a - c) <= Rabs (a - b) + Rabs (b - c).
Proof. replace (a - c) with ((a - b) + (b - c)) by ring. apply Rabs_triang. Qed.
Lemma Rabs_le_add a b : Rabs a <= Rabs b + Rabs (a - b).
Proof. replace a with (b + (a - b)) at 1 by ring. apply Rabs_triang. Qed.
Lemma e_nat N : N <= p2 40 -> N * e <= / 4096.
Proof.
  intros H. assert (P := p2_pos (-52)). apply Rle_trans with (p2 40 * e); [apply Rmult_le_compat_r; unfold e; lra|].
  unfold e. rewrite <- p2_add. change (40 + -52)%Z with (-12)%Z. unfold p2. simpl. lra.
Qed.

Section P.
Variables (rn : R -> R) (big : R).
Hypothesis RN : rounding rn big.
Hypothesis FA : faithful rn.

(** Sum of rounded terms that are within c e |a| + z of [a]. *)
Lemma sum_close n t (a q : nat -> R) c z : adds n t -> INR n * e <= / 4096 -> 0 <= c <= 8 -> 0 <= z ->
  (forall j, (j < n)%nat -> Rabs (q j - a j) <= c * e * Rabs (a j) + z) ->
  let A := bigsum n (fun j => Rabs (a j)) in
  Rabs (tsum rn q t - bigsum n a) <= (c + 3 * (INR n - 1)) * e * A + INR n * (2 * z + 2 * eta) /\
  bigsum n (fun j => Rabs (q j)) <= 2 * A + INR n * z.
Proof.
  intros T NE C Z H. cbv zeta. set (A := bigsum n (fun j => Rabs (a j))). set (N := INR n) in *.
  assert (E := e_small). assert (h0 := eta_pos).
  assert (N1 : 1 <= N) by (unfold N; rewrite <- (adds_length _ _ T); apply (le_INR 1), leaves_pos).
  assert (A0 : 0 <= A) by (unfold A; rewrite <- lsumf_seq; apply lsumf_nonneg; intros; apply Rabs_pos).
  assert (D : bigsum n (fun j => Rabs (q j - a j)) <= c * e * A + N * z).
  { unfold A, N. rewrite <- (bs_lin n (c * e) z (fun j => Rabs (a j))). apply bs_le. exact H. }
  assert (Q : bigsum n (fun j => Rabs (q j)) <= A + (c * e * A + N * z)).
  { apply Rle_trans with (bigsum n (fun j => Rabs (a j)) + bigsum n (fun j => Rabs (q j - a j))); [|unfold A in *; lra].
    assert (X : forall f g m, bigsum m f + bigsum m g = bigsum m (fun j => f j + g j)) by (clear; intros f g m; induction m as [|m IH]; cbn [bigsum]; [lra|rewrite <- IH; ring]).
    rewrite X. apply bs_le. intros j _. apply Rabs_le_add. }
  assert (CE : c * e * A <= 8 * e * A) by (apply Rmult_le_compat_r; [exact A0|apply Rmult_le_compat_r; lra]).
  assert (T1 := tsum_err rn big RN FA q t). cbv zeta in T1. rewrite (adds_length _ _ T), !(adds_sum _ _ _ T) in T1. fold N in T1. specialize (T1 ltac:(lra)).
  assert (S1 : Rabs (bigsum n q - bigsum n a) <= c * e * A + N * z).
  { rewrite bs_minus. eapply Rle_trans; [apply bs_abs|exact D]. }
  assert (e8 : 8 * e <= / 64) by lra.
  assert (X8 : 8 * e * A <= / 64 * A) by (apply Rmult_le_compat_r; lra).
  set (Qs := bigsum n (fun j => Rabs (q j))) in *.
  assert (Qb : Qs <= 5 / 4 * A + N * z) by lra.
  split; [|lra].
  assert (e * Qs <= e * (5 / 4 * A + N * z)) by (apply Rmult_le_compat_l; lra).
  assert (T2 : 2 * (N - 1) * (e * Qs + eta) <= 2 * (N - 1) * (e * (5 / 4 * A + N * z) + eta)) by (apply Rmult_le_compat_l; lra).
  assert (T3 := Rabs_add3 (tsum rn q t) (bigsum n q) (bigsum n a)).
  assert (Z1 : 0 <= N * z) by (apply Rmult_le_pos; lra).
  assert (Z2 : (N - 1) * e * (N * z) <= / 4096 * (N * z)) by (apply Rmult_le_compat_r; lra || nra).
  assert (EA : 0 <= e * A) by (apply Rmult_le_pos; lra).
  assert (Z3 : 0 <= (N - 1) * (e * A)) by (apply Rmult_le_pos; lra).
  nra.
Qed.

Section Cross.
Variables (n : nat) (w a b : nat -> R) (t : order).
Hypothesis UW : unit_weights n w.
Hypothesis MA : moderate_column n a.
Hypothesis MB : moderate_column n b.
Hypothesis T : adds n t.
Let N := INR n.
Definition tiny : R := p2 (-592).
Lemma NE : N * e <= / 4096. Proof. apply e_nat, UW. Qed.
Lemma tiny_eta : 4 * (p2 400 + 1) * eta <= tiny.
Proof.
  assert (1 <= p2 400) by (rewrite <- p2_0; apply p2_le; lia). assert (h0 := eta_pos).
  apply Rle_trans with (p2 3 * p2 400 * eta); [|unfold eta, tiny; rewrite <- !p2_add; apply p2_le; lia].
  apply Rmult_le_compat_r; [lra|]. replace (p2 3) with 8 by (unfold p2; simpl; lra). lra.
Qed.
(** rn (rn u * v) for |v| at most 2^400. *)
Lemma two_products u v : Rabs v <= p2 400 -> Rabs (rn (rn u * v) - u * v) <= 3 * e * Rabs (u * v) + tiny.
Proof.
  intros V. assert (E := e_small). assert (h0 := eta_pos). assert (TE := tiny_eta).
  assert (A1 := rn_err rn big RN FA u). assert (A2 := rn_err rn big RN FA (rn u * v)).
  assert (v0 := Rabs_pos v). assert (u0 := Rabs_pos u).
  assert (B1 : Rabs (rn u * v - u * v) <= (e * Rabs u + eta) * Rabs v).
  { replace (rn u * v - u * v) with ((rn u - u) * v) by ring. rewrite Rabs_mult. apply Rmult_le_compat_r; assumption. }
  assert (B2 := Rabs_le_add (rn u * v) (u * v)).
  assert (B3 : Rabs (rn (rn u * v) - u * v) <= Rabs (rn (rn u * v) - rn u * v) + Rabs (rn u * v - u * v)) by apply Rabs_add3.
  assert (P : Rabs (u * v) = Rabs u * Rabs v) by apply Rabs_mult. rewrite P in *.
  set (U := Rabs u) in *. set (V0 := Rabs v) in *.
  assert (H1 : eta * V0 <= eta * p2 400) by (apply Rmult_le_compat_l; lra).
  assert (UV : 0 <= U * V0) by (apply Rmult_le_pos; assumption).
  assert (H2 : e * Rabs (rn u * v) <= e * (U * V0 + (e * U + eta) * V0)) by (apply Rmult_le_compat_l; lra).
  assert (H3 : e * (e * (U * V0)) <= 1 * (e * (U * V0))) by (apply Rmult_le_compat_r; [apply Rmult_le_pos; lra|lra]).
  assert (H4 : e * (eta * V0) <= 1 * (eta * V0)) by (apply Rmult_le_compat_r; [apply Rmult_le_pos; lra|lra]).
  replace ((e * U + eta) * V0) with (e * (U * V0) + eta * V0) in * by ring.
  replace (e * (U * V0 + (e * (U * V0) + eta * V0))) with (e * (U * V0) + e * (e * (U * V0)) + e * (eta * V0)) in H2 by ring.
  assert (0 <= p2 400 * eta) by (apply Rmult_le_pos; [left; apply p2_pos|lra]). lra.
Qed.
Definition q1 (j : nat) : R := rn (rn (a j * w j) * b j).
Definition q2 (j : nat) : R := rn (a j * rn (w j * b j)).
Lemma term_size j : (j < n)%nat -> Rabs (w j * a j * b j) <= p2 800.
Proof.
  intros H. destruct (proj1 UW j H). rewrite !Rabs_mult. rewrite (Rabs_right (w j)) by lra. assert (A := MA j H). assert (B := MB j H).
  replace (p2 800) with (1 * p2 400 * p2 400) by (rewrite Rmult_1_l, <- p2_add; reflexivity).
  apply Rmult_le_compat; [apply Rmult_le_pos; [lra|apply Rabs_pos]|apply Rabs_pos| |exact B]. apply Rmult_le_compat; [lra|apply Rabs_pos|lra|exact A].
Qed.
Lemma q1_close j : (j < n)%nat -> Rabs (q1 j - w j * a j * b j) <= 3 * e * Rabs (w j * a j * b j) + tiny.
Proof. intros H. replace (w j * a j * b j) with (a j * w j * b j) by ring. apply two_products, MB, H. Qed.
Lemma q2_close j : (j < n)%nat -> Rabs (q2 j - w j * a j * b j) <= 3 * e * Rabs (w j * a j * b j) + tiny.
Proof. intros H. unfold q2. rewrite Rmult_comm. replace (w j * a j * b j) with (w j * b j * a j) by ring. apply two_products, MA, H. Qed.
Lemma size_bound : size_of n w a b <= p2 840.
Proof.
  unfold size_of. apply Rle_trans with (bigsum n (fun _ => 0 * 0 + p2 800)); [apply bs_le; intros j Hj; rewrite Rmult_0_l, Rplus_0_l; apply term_size, Hj|].
  rewrite (bs_lin n 0 (p2 800) (fun _ => 0)), Rmult_0_l, Rplus_0_l. replace (p2 840) with (p2 40 * p2 800) by (rewrite <- p2_add; reflexivity).
  apply Rmult_le_compat_r; [left; apply p2_pos|apply UW].
Qed.
Lemma size_nonneg : 0 <= size_of n w a b.
Proof. unfold size_of. rewrite <- lsumf_seq. apply lsumf_nonneg. intros; apply Rabs_pos. Qed.
Lemma tiny_small : 0 < tiny <= / 2 /\ eta <= tiny.
Proof.
  split; [split; [apply p2_pos|]|apply p2_le; lia]. apply Rle_trans with (p2 (-1)); [apply p2_le; lia|right; unfold p2; simpl; lra].
Qed.
Lemma close_main q : (forall j, (j < n)%nat -> Rabs (q j - w j * a j * b j) <= 3 * e * Rabs (w j * a j * b j) + tiny) ->
  Rabs (tsum rn q t - cross_of n w a b) <= INR n * (p2 (-49) * size_of n w a b + p2 (-590)) /\
  lsumf (fun j => Rabs (q j)) (leaves t) <= p2 990.
Proof.
  intros H. destruct tiny_small as [[t0 t1] t2]. assert (E := e_small). assert (h0 := eta_pos).
  destruct (sum_close n t (fun j => w j * a j * b j) q 3 tiny T NE ltac:(lra) ltac:(lra) H) as [S1 S2]. cbv zeta in S1, S2.
  fold (size_of n w a b) in S1, S2. fold (cross_of n w a b) in S1. fold N in S1, S2. fold N.
  assert (A0 := size_nonneg). assert (A1 := size_bound). set (A := size_of n w a b) in *.
  assert (N1 : 1 <= N) by (unfold N; rewrite <- (adds_length _ _ T); apply (le_INR 1), leaves_pos).
  split.
  - replace (p2 (-49)) with (8 * e) by (unfold e; replace 8 with (p2 3) by (unfold p2; simpl; lra); rewrite <- p2_add; reflexivity).
    replace (p2 (-590)) with (4 * tiny) by (unfold tiny; replace 4 with (p2 2) by (unfold p2; simpl; lra); rewrite <- p2_add; reflexivity).
    assert (EA : 0 <= e * A) by (apply Rmult_le_pos; lra).
    assert ((3 + 3 * (N - 1)) * (e * A) <= N * 8 * (e * A)) by (apply Rmult_le_compat_r; lra).
    assert (N * (2 * tiny + 2 * eta) <= N * (4 * tiny)) by (apply Rmult_le_compat_l; lra). lra.
  - rewrite (adds_sum _ _ _ T). assert (NB : N <= p2 40) by apply UW.
    assert (N * tiny <= p2 40 * 1) by (apply Rmult_le_compat; lra).
    assert (p2 40 <= p2 840) by (apply p2_le; lia).
    replace (p2 990) with (p2 150 * p2 840) by (rewrite <- p2_add; reflexivity).
    assert (p2 2 <= p2 150) by (apply p2_le; lia). replace (p2 2) with 4 in H2 by (unfold p2; simpl; lra).
    assert (4 * p2 840 <= p2 150 * p2 840) by (apply Rmult_le_compat_r; [left; apply p2_pos|lra]). lra.
Qed.
Lemma leaf_count : INR (length (leaves t)) * e <= / 4.
Proof. rewrite (adds_length _ _ T). fold N. assert (X := NE). lra. Qed.
Lemma bnd_of_abs k r : Rabs r <= p2 k -> bnd k r. Proof. exact (fun H => H). Qed.
Lemma wa_bnd u j : (j < n)%nat -> moderate_column n u -> bnd 400 (u j * w j).
Proof.
  intros H M. destruct (proj1 UW j H). unfold bnd. rewrite Rabs_mult, (Rabs_right (w j)) by lra.
  replace (p2 400) with (p2 400 * 1) by ring. apply Rmult_le_compat; [apply Rabs_pos|lra|apply M, H|lra].
Qed.
Lemma cross_val fw fa fb : reads n fw w -> reads n fa a -> reads n fb b -> xval (r_cross rn big t fw fa fb) = Some (tsum rn q1 t).
Proof.
  intros FW FA' FB. unfold r_cross. apply (osum_val rn big RN FA); [|exact leaf_count|apply close_main, q1_close].
  intros j Hj. assert (J := adds_in _ _ _ T Hj). assert (B := wa_bnd a j J MA).
  apply (v_mul rn big RN 800); [lia| |apply FB, J|].
  - apply (v_mul rn big RN 400); [lia|apply FA', J|apply FW, J|exact B].
  - apply (bnd_mul 400 400); [apply (rbnd rn big RN); [lia|exact B]|apply MB, J].
Qed.
Lemma cross_dr_val fw fa fb : reads n fw w -> reads n fa a -> reads n fb b -> xval (r_cross_dr rn big t fw fa fb) = Some (tsum rn q2 t).
Proof.
  intros FW FA' FB. unfold r_cross_dr. apply (osum_val rn big RN FA); [|exact leaf_count|apply close_main, q2_close].
  intros j Hj. assert (J := adds_in _ _ _ T Hj). assert (B := wa_bnd b j J MB). rewrite Rmult_comm in B.
  apply (v_mul rn big RN 800); [lia|apply FA', J| |].
  - apply (v_mul rn big RN 400); [lia|apply FW, J|apply FB, J|exact B].
  - apply (bnd_mul 400 400); [apply MA, J|apply (rbnd rn big RN); [lia|exact B]].
Qed.
End Cross.

(** The diagonal. *)
Lemma tsum_low a t k j : (-1000 <= k <= 1000)%Z -> (forall i, In i (leaves t) -> 0 <= a i) -> In j (leaves t) -> p2 k <= a j -> p2 k <= tsum rn a t.
Proof.
  intros K. induction t as [i|l IHl r IHr]; intros P J L; cbn [tsum leaves] in *.
  - destruct J as [->|[]]. exact L.
  - destruct (sub_leaves (fun i => 0 <= a i) l r P) as [Pl Pr]. assert (0 <= tsum rn a l) by (apply (tsum_nonneg rn big RN); exact Pl).
    assert (0 <= tsum rn a r) by (apply (tsum_nonneg rn big RN); exact Pr).
    apply (ge rn big RN); [exact K|]. apply in_app_or in J. destruct J as [J|J]; [specialize (IHl Pl J L)|specialize (IHr Pr J L)]; lra.
Qed.
Lemma square_term u v : 0 <= u -> 0 <= rn (rn (v * u) * v).
Proof.
  intros U. apply (pos rn big RN). destruct (Rle_dec 0 v) as [V|V].
  - apply Rmult_le_pos; [apply (pos rn big RN), Rmult_le_pos; lra|lra].
  - assert (rn (v * u) <= 0) by (apply (neg rn big RN); nra). nra.
Qed.
Lemma square_low u v : p2 (-400) <= u -> p2 (-200) <= Rabs v -> p2 (-800) <= rn (rn (v * u) * v).
Proof.
  intros U V. assert (P := p2_pos (-400)). assert (Q := p2_pos (-200)). apply (ge rn big RN); [lia|].
  assert (X : p2 (-600) <= Rabs v * u).
  { change (-600)%Z with (-200 + -400)%Z. rewrite p2_add. apply Rmult_le_compat; lra. }
  assert (Y : p2 (-800) <= p2 (-600) * Rabs v).
  { change (-800)%Z with (-600 + -200)%Z. rewrite p2_add. apply Rmult_le_compat_l; [left; apply p2_pos|exact V]. }
  assert (q6 := p2_pos (-600)). assert (v0 := Rabs_pos v).
  destruct (Rle_dec 0 v) as [Hv|Hv].
  - rewrite (Rabs_right v) in * by lra. assert (p2 (-600) <= rn (v * u)) by (apply (ge rn big RN); [lia|exact X]).
    eapply Rle_trans; [exact Y|]. apply Rmult_le_compat_r; lra.
  - rewrite (Rabs_left v) in * by lra.
    assert (rn (v * u) <= - p2 (-600)) by (rewrite <- (npow rn big RN (-600)) by lia; apply (mono rn big RN); lra).
    eapply Rle_trans; [exact Y|]. replace (rn (v * u) * v) with (- rn (v * u) * - v) by ring. apply Rmult_le_compat_r; lra.
Qed.
End P.

Lemma cross_main rn big : rounding rn big -> faithful rn -> forall n w a b fw fa fb t,
  unit_weights n w -> moderate_column n a -> moderate_column n b -> reads n fw w -> reads n fa a -> reads n fb b -> adds n t ->
  let close x := exists v, xval x = Some v /\ Rabs (v - cross_of n w a b) <= INR n * (p2 (-49) * size_of n w a b + p2 (-590)) in
  close (r_cross rn big t fw fa fb) /\ close (r_cross_dr rn big t fw fa fb).
Proof.
  intros RN FA n w a b fw fa fb t UW MA MB FW Fa Fb T. cbv zeta. split; eexists.
  - split; [apply (cross_val rn big RN FA n w a b t UW MA MB T fw fa fb); assumption|]. apply (close_main rn big RN FA n w a b t UW MA MB T), (q1_close rn big RN FA); assumption.
  - split; [apply (cross_dr_val rn big RN FA n w a b t UW MA MB T fw fa fb); assumption|]. apply (close_main rn big RN FA n w a b t UW MA MB T), (q2_close rn big RN FA); assumption.
Qed.
Lemma diagonal_main rn big : rounding rn big -> faithful rn -> forall n w a fw fa t,
  unit_weights n w -> moderate_column n a -> reads n fw w -> reads n fa a -> adds n t ->
  exists v, xval (r_cross rn big t fw fa fa) = Some v /\ 0 <= v /\
  ((exists j, (j < n)%nat /\ p2 (-400) <= w j /\ p2 (-200) <= Rabs (a j)) -> 0 < v).
Proof.
  intros RN FA n w a fw fa t UW MA FW Fa T. eexists. split; [apply (cross_val rn big RN FA n w a a t UW MA MA T fw fa fa); assumption|].
  assert (P : forall j, In j (leaves t) -> 0 <= q1 rn w a a j) by (intros j J; apply (square_term rn big RN), UW, (adds_in _ _ _ T J)).
  split; [apply (tsum_nonneg rn big RN); exact P|]. intros (j & J & W & A). apply Rlt_le_trans with (p2 (-800)); [apply p2_pos|].
  apply (tsum_low rn big RN _ _ (-800) j); [lia|exact P| |apply (square_low rn big RN); assumption].
  apply (Permutation_in _ (Permutation_sym T)), in_seq. lia.
Qed.
