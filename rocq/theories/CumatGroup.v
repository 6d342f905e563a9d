(** Proofs about CumatModel.v: one group of the device regression. *)
From Coq Require Import Reals Bool List Arith Lia Lra.
From Verif Require Import Outcome Sums CumatModel CumatSpec CumatProofs CumatCases.
Import ListNotations.
Local Open Scope R_scope.

Definition as_matrix (d : mem) (off rows : nat) (i j : nat) : R := nth (off + (i + j * rows)) d 0.

Lemma series_self d count rows cols : (count * (rows * cols) <= length d)%nat ->
  series d 0 (rows * cols) count rows cols (fun s => as_matrix d (s * (rows * cols)) rows).
Proof.
  intros L s Hs. cbn. apply holds_self.
  assert (Q : (S s * (rows * cols) <= count * (rows * cols))%nat) by (apply Nat.mul_le_mono_r; lia). cbn in Q. lia.
Qed.
Lemma series_const d off rows cols M count : holds d off rows cols M -> series d off 0 count rows cols (fun _ => M).
Proof. intros H s Hs. rewrite Nat.mul_0_r, Nat.add_0_r. exact H. Qed.

Section Group.
Variable inv : nat -> mem -> option mem.
Variables nvar ndp G nout : nat.
Variables xt y : mem.
Variables (X : nat -> nat -> R) (Y : nat -> R).
Hypothesis P1 : (0 < nvar)%nat.
Hypothesis P2 : (0 < ndp)%nat.
Hypothesis P3 : (0 < G)%nat.
Hypothesis HX : holds xt 0 nvar ndp (fun a k => X k a).
Hypothesis HY : forall k, (k < ndp)%nat -> nth_error y k = Some (Y k).

Variables (ws : list mem) (Wt : nat -> nat -> R) (first : nat).
Hypothesis HW : forall i w k, nth_error ws i = Some w -> (k < ndp)%nat -> nth_error w k = Some (Wt i k).
Hypothesis LW : (length ws <= G)%nat.
Hypothesis LF : (first + length ws <= nout)%nat.

Definition cross (i a b : nat) : R := bigsum ndp (fun k => X k a * Wt i k * X k b).
Definition cross_y (i a : nat) : R := bigsum ndp (fun k => X k a * Wt i k * Y k).

(** What the group does before the inversion. *)
Lemma before s : allocated nvar ndp G nout s -> exists xtw xtwx xtwy,
  weigh (cumat nvar ndp xt) ws 0 nvar ndp G (d_xtw s) = Ok xtw /\
  matmul (custride nvar ndp G xtw) (t (cumat nvar ndp xt)) (custride nvar nvar G (d_xtwx s)) = Ok xtwx /\
  matmul (custride nvar ndp G xtw) (cumat ndp 1 y) (custride nvar 1 G (d_xtwy s)) = Ok xtwy /\
  length xtw = (G * (nvar * ndp))%nat /\ length xtwx = (G * (nvar * nvar))%nat /\ length xtwy = (G * nvar)%nat /\
  (forall i, (i < length ws)%nat -> holds xtw (i * (nvar * ndp)) nvar ndp (fun a k => X k a * Wt i k)) /\
  (forall i, (i < length ws)%nat -> holds xtwx (i * (nvar * nvar)) nvar nvar (cross i)) /\
  (forall i, (i < length ws)%nat -> holds xtwy (i * nvar) nvar 1 (fun a _ => cross_y i a)).
Proof.
  intros (A1 & A2 & A3 & A4 & A5 & A6).
  destruct (weigh_main nvar ndp G xt X P1 P2 HX ws 0 Wt (d_xtw s)) as (xtw & E & Hxtw & [L1 _]).
  { intros i w k Hi Hk. apply HW with (1 := Hi) (2 := Hk). }
  { rewrite A1. cbn [plus]. apply Nat.mul_le_mono_r. exact LW. }
  rewrite A1 in L1. cbn [plus] in Hxtw.
  destruct (matmul_main (custride nvar ndp G xtw) (t (cumat nvar ndp xt)) (custride nvar nvar G (d_xtwx s))
     (fun s => as_matrix xtw (s * (nvar * ndp)) nvar) (fun _ a k => X k a)) as (xtwx & E2 & H2 & [S2 _]); cbn; auto.
  { discriminate. }
  { rewrite A2. apply le_n. }
  { apply series_self. rewrite L1. apply le_n. }
  { apply series_const. exact HX. }
  destruct (matmul_main (custride nvar ndp G xtw) (cumat ndp 1 y) (custride nvar 1 G (d_xtwy s))
     (fun s => as_matrix xtw (s * (nvar * ndp)) nvar) (fun _ k _ => Y k)) as (xtwy & E3 & H3 & [S3 _]); cbn; auto.
  { discriminate. }
  { rewrite A3, Nat.mul_1_r. apply le_n. }
  { apply series_self. rewrite L1. apply le_n. }
  { apply series_const. intros k j Hk Hj. assert (j = 0%nat) by lia. subst. cbn. rewrite Nat.add_0_r. apply HY; auto. }
  exists xtw, xtwx, xtwy. split; [exact E|]. split; [exact E2|]. split; [exact E3|].
  cbn in S2, S3. split; [exact L1|]. split; [congruence|]. split; [congruence|]. split; [exact Hxtw|].
  assert (Eq : forall i a k, (i < length ws)%nat -> (a < nvar)%nat -> (k < ndp)%nat ->
     as_matrix xtw (i * (nvar * ndp)) nvar a k = X k a * Wt i k).
  { intros i a k Hi Ha Hk.
    apply (holds_unique xtw (i * (nvar * ndp)) nvar ndp (as_matrix xtw (i * (nvar * ndp)) nvar) (fun a k => X k a * Wt i k)); auto.
    apply holds_self. rewrite L1.
    assert (Q : (S i * (nvar * ndp) <= G * (nvar * ndp))%nat) by (apply Nat.mul_le_mono_r; lia). cbn in Q. lia. }
  split.
  - intros i Hi. specialize (H2 i). cbn in H2. eapply holds_ext; [|apply H2; lia]. intros a b Ha Hb.
    unfold product, cross, flipped. apply bigsum_ext. intros k Hk. rewrite Eq by auto. reflexivity.
  - intros i Hi. specialize (H3 i). cbn in H3. rewrite Nat.mul_1_r in H3. eapply holds_ext; [|apply H3; lia]. intros a b Ha Hb.
    unfold product, cross_y, flipped. apply bigsum_ext. intros k Hk. rewrite Eq by auto. reflexivity.
Qed.

(** The last product. *)
Lemma after xI xtwy betas : length xI = (G * (nvar * nvar))%nat -> length xtwy = (G * nvar)%nat -> length betas = (nvar * nout)%nat ->
  exists d, matmul (custride nvar nvar G xI) (custride nvar 1 G xtwy) (view (as_stride (cumat nvar nout betas)) first (first + length ws)) = Ok d /\
   (forall i, (i < length ws)%nat -> holds d ((first + i) * nvar) nvar 1
      (product nvar (as_matrix xI (i * (nvar * nvar)) nvar) (as_matrix xtwy (i * nvar) nvar))) /\
   same_outside (first * nvar) ((first + length ws) * nvar) betas d.
Proof.
  intros L1 L2 L3.
  destruct (matmul_main (custride nvar nvar G xI) (custride nvar 1 G xtwy) (view (as_stride (cumat nvar nout betas)) first (first + length ws))
    (fun s => as_matrix xI (s * (nvar * nvar)) nvar) (fun s => as_matrix xtwy (s * (nvar * 1)) nvar)) as (d & E & H & S); cbn; auto; try discriminate.
  - replace (first + length ws - first)%nat with (length ws) by lia. rewrite !Nat.mul_1_r, <- Nat.mul_add_distr_r, L3.
    rewrite (Nat.mul_comm nvar nout). apply Nat.mul_le_mono_r. exact LF.
  - intros s Hs. apply (series_self xI G nvar nvar); [rewrite L1; apply le_n|]. lia.
  - intros s Hs. apply (series_self xtwy G nvar 1); [rewrite L2, Nat.mul_1_r; apply le_n|]. lia.
  - exists d. split; [exact E|]. cbn in H, S. replace (first + length ws - first)%nat with (length ws) in * by lia.
    rewrite !Nat.mul_1_r in *. rewrite <- Nat.mul_add_distr_r in S. split; [|exact S].
    intros i Hi. rewrite Nat.mul_add_distr_r. specialize (H i Hi). eapply holds_ext; [|exact H]. intros a b Ha Hb.
    unfold product, flipped. rewrite ?Nat.mul_1_r. reflexivity.
Qed.

Lemma group_main s s' : (nvar <= 32)%nat -> inverts inv -> allocated nvar ndp G nout s -> cuda_group inv nvar ndp G nout xt y ws first s = Ok s' ->
  allocated nvar ndp G nout s' /\
  (forall i, (i < length ws)%nat -> exists I,
     (forall a b, (a < nvar)%nat -> (b < nvar)%nat -> product nvar I (cross i) a b = if Nat.eqb a b then 1 else 0) /\
     holds (d_xtwxI s') (i * (nvar * nvar)) nvar nvar I /\
     holds (d_xtw s') (i * (nvar * ndp)) nvar ndp (fun a k => X k a * Wt i k) /\
     holds (d_betas s') ((first + i) * nvar) nvar 1 (fun a _ => bigsum nvar (fun b => I a b * cross_y i b))) /\
  same_outside (first * nvar) ((first + length ws) * nvar) (d_betas s) (d_betas s').
Proof.
  intros N32 Inv A H. destruct (before s A) as (xtw & xtwx & xtwy & E1 & E2 & E3 & L1 & L2 & L3 & H0 & H1 & H2).
  destruct A as (A1 & A2 & A3 & A4 & A5 & A6).
  unfold cuda_group in H. rewrite E1 in H. cbn [obind] in H. rewrite E2 in H. cbn [obind] in H. rewrite E3 in H. cbn [obind] in H.
  assert (Sh : forall v w, inv nvar v = Some w -> length v = (nvar * nvar)%nat -> length w = (nvar * nvar)%nat).
  { intros v w W Lv. assert (HV := holds_self v 0 nvar nvar). cbn in HV. rewrite Lv in HV. destruct (Inv nvar v w _ W Lv (HV (le_n _))); auto. }
  destruct (matinv_main inv nvar Sh G xtwx (d_xtwxI s) (d_info s)) as (xI & info & E4 & L4 & L5 & H4); try lia.
  assert (E5 : inverse inv (custride nvar nvar G xtwx) (custride nvar nvar G (d_xtwxI s)) (d_info s) = Ok (xI, info)).
  { unfold inverse. change (nrows (custride nvar nvar G xtwx)) with nvar. rewrite (proj2 (Nat.ltb_ge 32 nvar)) by lia. exact E4. }
  rewrite E5 in H. cbn [obind fst snd] in H.
  destruct (forallb (fun b => b) (firstn G info)) eqn:F; [|discriminate].
  destruct (after xI xtwy (d_betas s)) as (d & E6 & H6 & S6); try congruence.
  rewrite E6 in H. cbn [obind] in H. inversion H; subst s'. cbn. unfold allocated. cbn.
  destruct S6 as [S6 S7].
  split; [repeat split; congruence|]. split; [|split; auto].
  intros i Hi. rewrite forallb_forall in F.
  assert (T : nth_error info i = Some true).
  { destruct (nth_error info i) as [v|] eqn:V; [|apply nth_error_None in V; lia]. f_equal.
    apply F. rewrite firstn_all2 by lia. apply nth_error_In with (1 := V). }
  destruct (H4 i) as (w & W & R); [lia|exact T|].
  assert (B : (i * (nvar * nvar) + nvar * nvar <= length xtwx)%nat).
  { rewrite L2. assert (Q : (S i * (nvar * nvar) <= G * (nvar * nvar))%nat) by (apply Nat.mul_le_mono_r; lia). cbn in Q. lia. }
  destruct (Inv nvar _ w (cross i) W) as [Lw Iw].
  { apply block_len. exact B. }
  { apply holds_block; [exact B|]. apply H1; auto. }
  assert (Hw : holds xI (i * (nvar * nvar)) nvar nvar (as_matrix w 0 nvar)).
  { intros a b Ha Hb. rewrite R.
    - assert (HV := holds_self w 0 nvar nvar). cbn in HV. rewrite Lw in HV. apply (HV (le_n _) a b Ha Hb).
    - replace (nvar * nvar)%nat with ((nvar - 1) * nvar + nvar)%nat by (destruct nvar; [lia|]; cbn; lia).
      assert (b * nvar <= (nvar - 1) * nvar)%nat by (apply Nat.mul_le_mono_r; lia). lia. }
  exists (as_matrix w 0 nvar). split; [|split; [exact Hw|split; [apply H0; auto|]]].
  - intros a b Ha Hb. apply Iw; auto. assert (HV := holds_self w 0 nvar nvar). cbn in HV. rewrite Lw in HV. apply (HV (le_n _)).
  - eapply holds_ext; [|apply H6; auto]. intros a b Ha Hb. assert (b = 0%nat) by lia. subst b. unfold product. apply bigsum_ext. intros c Hc. f_equal.
    + apply (holds_unique xI (i * (nvar * nvar)) nvar nvar (as_matrix xI (i * (nvar * nvar)) nvar) (as_matrix w 0 nvar)); auto. apply holds_self. congruence.
    + apply (holds_unique xtwy (i * nvar) nvar 1 (as_matrix xtwy (i * nvar) nvar) (fun a _ => cross_y i a)); auto.
      apply holds_self. rewrite L3. assert (Q : (S i * nvar <= G * nvar)%nat) by (apply Nat.mul_le_mono_r; lia). cbn in Q. lia.
Qed.

(** More than 32 columns. *)
Lemma many_columns s : (32 < nvar)%nat -> allocated nvar ndp G nout s -> (forall b, In b (d_info s) -> b = true) -> (forall q, nth q (d_xtwxI s) 0 = 0) ->
  exists s', cuda_group inv nvar ndp G nout xt y ws first s = Ok s' /\
  forall i, (i < length ws)%nat -> holds (d_betas s') ((first + i) * nvar) nvar 1 (fun _ _ => 0).
Proof.
  intros N32 A Inf Z. destruct (before s A) as (xtw & xtwx & xtwy & E1 & E2 & E3 & L1 & L2 & L3 & H0 & H1 & H2).
  destruct A as (A1 & A2 & A3 & A4 & A5 & A6).
  unfold cuda_group. rewrite E1. cbn [obind]. rewrite E2. cbn [obind]. rewrite E3. cbn [obind].
  unfold inverse at 1. change (nrows (custride nvar nvar G xtwx)) with nvar. rewrite (proj2 (Nat.ltb_lt 32 nvar)) by lia. cbn [obind fst snd o_mem custride].
  rewrite (proj2 (forallb_forall _ _)).
  2:{ intros b Hb. apply Inf. rewrite <- (firstn_skipn G (d_info s)). apply in_or_app. left. exact Hb. }
  destruct (after (d_xtwxI s) xtwy (d_betas s)) as (d & E6 & H6 & S6); try congruence.
  rewrite E6. cbn [obind]. eexists. split; [reflexivity|]. cbn. intros i Hi.
  eapply holds_ext; [|apply H6; auto]. intros a b Ha Hb. unfold product, as_matrix.
  rewrite (bigsum_ext _ _ (fun _ => 0)); [apply bigsum_0|]. intros l Hl. rewrite Z. ring.
Qed.

(** Hat rows. *)
Lemma hat_main s u_c u_s (I : nat -> nat -> nat -> R) : length xt = (nvar * ndp)%nat -> allocated nvar ndp G nout s -> (first + G <= ndp)%nat ->
  length u_c = (G * (nvar * ndp))%nat -> length u_s = (G * ndp)%nat ->
  (forall i, (i < length ws)%nat -> holds (d_xtwxI s) (i * (nvar * nvar)) nvar nvar (I i)) ->
  (forall i, (i < length ws)%nat -> holds (d_xtw s) (i * (nvar * ndp)) nvar ndp (fun a k => X k a * Wt i k)) ->
  exists c h, cuda_hat nvar ndp G xt first (length ws) s u_c u_s = Ok (c, h) /\
  forall i, (i < length ws)%nat ->
    holds c (i * (nvar * ndp)) nvar ndp (fun a k => bigsum nvar (fun b => I i a b * (X k b * Wt i k))) /\
    holds h (i * ndp) 1 ndp (fun _ k => bigsum nvar (fun a => X (first + i)%nat a * bigsum nvar (fun b => I i a b * (X k b * Wt i k)))).
Proof.
  intros Lx (A1 & A2 & A3 & A4 & A5 & A6) Fit Lc Lh HI Hxtw.
  destruct (matmul_main (custride nvar nvar G (d_xtwxI s)) (custride nvar ndp G (d_xtw s)) (custride nvar ndp G u_c)
    (fun s' => as_matrix (d_xtwxI s) (s' * (nvar * nvar)) nvar) (fun s' => as_matrix (d_xtw s) (s' * (nvar * ndp)) nvar))
    as (c & E1 & H1 & [S1 _]); cbn; auto; try discriminate.
  { rewrite Lc. apply le_n. }
  { apply series_self. rewrite A4. apply le_n. }
  { apply series_self. rewrite A1. apply le_n. }
  unfold cuda_hat. rewrite E1. cbn [obind]. cbn in S1, H1.
  assert (Hc : forall i, (i < length ws)%nat -> holds c (i * (nvar * ndp)) nvar ndp (fun a k => bigsum nvar (fun b => I i a b * (X k b * Wt i k)))).
  { intros i Hi. eapply holds_ext; [|apply H1; lia]. intros a k Ha Hk. unfold product, flipped. apply bigsum_ext. intros b Hb. f_equal.
    - apply (holds_unique (d_xtwxI s) (i * (nvar * nvar)) nvar nvar (as_matrix (d_xtwxI s) (i * (nvar * nvar)) nvar) (I i)); auto. apply holds_self. rewrite A4.
      assert (Q : (S i * (nvar * nvar) <= G * (nvar * nvar))%nat) by (apply Nat.mul_le_mono_r; lia). cbn in Q. lia.
    - apply (holds_unique (d_xtw s) (i * (nvar * ndp)) nvar ndp _ (fun a k => X k a * Wt i k)); auto. apply holds_self. rewrite A1.
      assert (Q : (S i * (nvar * ndp) <= G * (nvar * ndp))%nat) by (apply Nat.mul_le_mono_r; lia). cbn in Q. lia. }
  destruct (matmul_main (t (view (as_stride (cumat nvar ndp xt)) first (first + length ws))) (custride nvar ndp G c) (custride 1 ndp G u_s)
    (fun s' a _ => X (first + s')%nat a) (fun s' => as_matrix c (s' * (nvar * ndp)) nvar)) as (h & E2 & H2 & _); try (cbn; auto; try discriminate; fail).
  { cbn. rewrite Lh, Nat.add_0_r. apply le_n. }
  { intros s' Hs a j Ha Hj. cbn in Hs, Ha, Hj. assert (j = 0%nat) by lia. subst. cbn. rewrite !Nat.mul_1_r, <- Nat.mul_add_distr_r.
    specialize (HX a (first + s')%nat Ha). cbn in HX. rewrite Nat.add_0_r, Nat.add_comm. apply HX. lia. }
  { apply series_self. rewrite S1, Lc. apply le_n. }
  rewrite E2. cbn [obind]. exists c, h. split; [reflexivity|]. intros i Hi. split; [apply Hc; auto|].
  cbn in H2. specialize (H2 i). rewrite Nat.add_0_r in H2. eapply holds_ext; [|apply H2; lia]. intros z k Hz Hk.
  unfold product, flipped. apply bigsum_ext. intros a Ha. f_equal.
  apply (holds_unique c (i * (nvar * ndp)) nvar ndp _ (fun a k => bigsum nvar (fun b => I i a b * (X k b * Wt i k)))); auto.
  apply holds_self. rewrite S1, Lc.
  assert (Q : (S i * (nvar * ndp) <= G * (nvar * ndp))%nat) by (apply Nat.mul_le_mono_r; lia). cbn in Q. lia.
Qed.

(** The hat rows of a last group that is not full. *)
Lemma batch_ub batch (ta tb : bool) m n k A oa lda sa B ob ldb sb C oc ldc sc s l :
  (s < batch)%nat -> (0 < m)%nat -> (0 < n)%nat -> (l < k)%nat ->
  ((if ta then k else m) <= lda)%nat -> ((if tb then n else k) <= ldb)%nat -> (m <= ldc)%nat ->
  (length A <= oa + s * sa + pos ta lda 0 l)%nat ->
  gemm_batch batch ta tb m n k A oa lda sa B ob ldb sb C oc ldc sc = UB \/
  gemm_batch batch ta tb m n k A oa lda sa B ob ldb sb C oc ldc sc = Throw.
Proof.
  intros Hs M N L La Lb Lc H. induction batch as [|b IH]; [lia|]. cbn [gemm_batch].
  destruct (Nat.eq_dec s b) as [->|Ne].
  - destruct (gemm_batch b _ _ _ _ _ _ _ _ _ _ _ _ _ _ _ _ _); cbn [obind]; auto. left.
    apply (gemm_ub _ _ _ _ _ _ _ _ _ _ _ _ _ _ l); auto.
  - destruct IH as [->| ->]; [lia|auto|auto].
Qed.
Lemma gemm_no_throw (ta tb : bool) m n k A oa lda B ob ldb C oc ldc : (0 < lda)%nat -> (0 < ldb)%nat -> (0 < ldc)%nat ->
  ((if ta then k else m) <= lda)%nat -> ((if tb then n else k) <= ldb)%nat -> (m <= ldc)%nat ->
  gemm ta tb m n k A oa lda B ob ldb C oc ldc <> Throw.
Proof.
  intros Z1 Z2 Z3 La Lb Lc. unfold gemm.
  rewrite (proj2 (Nat.ltb_ge lda _)) by (destruct ta; lia). rewrite (proj2 (Nat.ltb_ge ldb _)) by (destruct tb; lia).
  rewrite (proj2 (Nat.ltb_ge ldc _)) by lia. cbn [orb].
  destruct (Nat.eqb m 0 || Nat.eqb n 0); [discriminate|]. destruct (Nat.ltb _ _); [discriminate|]. destruct (oall _); discriminate.
Qed.

Lemma hat_tail s u_c u_s : length xt = (nvar * ndp)%nat -> allocated nvar ndp G nout s -> (ndp < first + G)%nat -> (first <= ndp)%nat ->
  length u_c = (G * (nvar * ndp))%nat ->
  cuda_hat nvar ndp G xt first (length ws) s u_c u_s = UB.
Proof.
  intros Lx (A1 & A2 & A3 & A4 & A5 & A6) Over F Lc.
  destruct (matmul_main (custride nvar nvar G (d_xtwxI s)) (custride nvar ndp G (d_xtw s)) (custride nvar ndp G u_c)
    (fun s' => as_matrix (d_xtwxI s) (s' * (nvar * nvar)) nvar) (fun s' => as_matrix (d_xtw s) (s' * (nvar * ndp)) nvar))
    as (c & E1 & H1 & [S1 _]); cbn; auto; try discriminate.
  { rewrite Lc. apply le_n. }
  { apply series_self. rewrite A4. apply le_n. }
  { apply series_self. rewrite A1. apply le_n. }
  unfold cuda_hat. rewrite E1. cbn [obind]. unfold matmul. cbn [t view as_stride cumat custride o_trans o_kind o_mem o_off o_rows o_cols nrows ncols getStrides getStrideSize negb].
  rewrite ?Nat.mul_1_r, ?Nat.mul_1_l, ?Nat.add_0_l.
  assert (NT : forall b C, gemm_batch b true false 1 ndp nvar xt (first * nvar) nvar nvar c 0 nvar (nvar * ndp) C 0 1 ndp <> Throw).
  { intros b; induction b as [|b IH]; intros C; cbn [gemm_batch]; [discriminate|].
    destruct (gemm_batch b _ _ _ _ _ _ _ _ _ _ _ _ _ _ _ _ _) eqn:E; cbn [obind]; try discriminate.
    - apply gemm_no_throw; lia.
    - exfalso. apply (IH C). exact E. }
  destruct (batch_ub G true false 1 ndp nvar xt (first * nvar) nvar nvar c 0 nvar (nvar * ndp) u_s 0 1 ndp (ndp - first) 0) as [Q|Q]; try lia.
  - cbn. rewrite Lx, Nat.add_0_r, <- Nat.mul_add_distr_r, (Nat.mul_comm nvar). apply Nat.mul_le_mono_r. lia.
  - rewrite Q. reflexivity.
  - exfalso. exact (NT _ _ Q).
Qed.
End Group.
