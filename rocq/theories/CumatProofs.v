(** Proofs about CumatModel.v: products. *)
From Coq Require Import Reals Bool List Arith Lia Lra.
From Verif Require Import Outcome Sums CumatModel CumatSpec.
Import ListNotations.
Local Open Scope R_scope.

Lemma oall_some l : (forall q, In q l -> q <> None) -> exists r, oall l = Some r /\ map Some r = l.
Proof.
  induction l as [|a l IH]; intros H; cbn; [eauto|].
  destruct a as [x|]; [|exfalso; apply (H None); cbn; auto].
  destruct IH as (r & -> & E); [intros q I; apply H; right; auto|]. exists (x :: r). cbn. rewrite E. auto.
Qed.
Lemma oall_inv l r : oall l = Some r -> map Some r = l.
Proof.
  revert r; induction l as [|a l IH]; cbn; intros r H; [inversion H; auto|].
  destruct a as [x|]; [|discriminate]. destruct (oall l) as [s|]; [|discriminate]. inversion H. cbn. rewrite (IH s); auto.
Qed.

Lemma osum_some k (f : nat -> option R) (g : nat -> R) : (forall l, (l < k)%nat -> f l = Some (g l)) ->
  osum (map f (seq 0 k)) = Some (bigsum k g).
Proof.
  intros H. rewrite bigsum_seq, sumloop_lsum.
  assert (G : forall a n, (a + n <= k)%nat -> osum (map f (seq a n)) = Some (lsum (map g (seq a n)))).
  { intros a n; revert a; induction n as [|n IH]; intros a L; cbn; [reflexivity|].
    rewrite H by lia. rewrite IH by lia. reflexivity. }
  apply G; lia.
Qed.

(** The shape shared by gemm and dgmm. *)
Lemma block_write (C : mem) oc ldc m n (f : nat -> nat -> option R) (E : nat -> nat -> R) :
  (0 < m)%nat -> (0 < n)%nat -> (m <= ldc)%nat -> (oc + (n - 1) * ldc + m <= length C)%nat ->
  (forall i j, (i < m)%nat -> (j < n)%nat -> f i j = Some (E i j)) ->
  exists C', oall (map (fun q => if inside oc ldc m n q then f ((q - oc) mod ldc) ((q - oc) / ldc) else nth_error C q)%nat
       (seq 0 (length C))) = Some C' /\
    (forall i j, (i < m)%nat -> (j < n)%nat -> nth_error C' (oc + (i + j * ldc)) = Some (E i j)) /\
    same_outside oc (oc + (n - 1) * ldc + m) C C'.
Proof.
  intros M N L Z F.
  destruct (oall_some (map (fun q => if inside oc ldc m n q then f ((q - oc) mod ldc) ((q - oc) / ldc) else nth_error C q)%nat
       (seq 0 (length C)))) as (C' & A & S).
  { intros q I. apply in_map_iff in I as (p & <- & I). apply in_seq in I.
    destruct (inside oc ldc m n p) eqn:J.
    - unfold inside in J. apply andb_true_iff in J as [J J3]. apply andb_true_iff in J as [_ J2].
      apply Nat.ltb_lt in J2, J3. rewrite F by lia. discriminate.
    - apply nth_error_Some. lia. }
  assert (Len : length C' = length C).
  { rewrite <- (map_length Some C'), S, map_length, seq_length. reflexivity. }
  assert (At : forall q, (q < length C)%nat -> nth_error C' q =
     if inside oc ldc m n q then f ((q - oc) mod ldc)%nat ((q - oc) / ldc)%nat else nth_error C q).
  { intros q Q. assert (X := f_equal (fun l => nth_error l q) S). cbn in X.
    rewrite nth_error_map in X. rewrite nth_error_map in X.
    rewrite (nth_error_nth' (seq 0 (length C)) 0%nat) in X by (rewrite seq_length; auto). rewrite seq_nth in X by auto. cbn [option_map plus] in X.
    destruct (nth_error C' q) as [v|] eqn:V; [|apply nth_error_None in V; lia]. cbn in X. inversion X. reflexivity. }
  exists C'. split; [exact A|]. split; [|split; [exact Len|]].
  - intros i j I J. assert (B : (j * ldc <= (n - 1) * ldc)%nat) by (apply Nat.mul_le_mono_r; lia).
    rewrite At by lia.
    assert (D : (oc + (i + j * ldc) - oc = i + j * ldc)%nat) by lia.
    assert (Md : ((i + j * ldc) mod ldc = i)%nat) by (rewrite Nat.mod_add by lia; apply Nat.mod_small; lia).
    assert (Dv : ((i + j * ldc) / ldc = j)%nat) by (rewrite Nat.div_add by lia; rewrite Nat.div_small by lia; lia).
    unfold inside. rewrite D, Md, Dv. rewrite (proj2 (Nat.leb_le _ _)) by lia. rewrite (proj2 (Nat.ltb_lt _ _)) by lia.
    rewrite (proj2 (Nat.ltb_lt _ _)) by lia. cbn. apply F; auto.
  - intros q Q. destruct (le_lt_dec (length C) q) as [G|G].
    { rewrite (proj2 (nth_error_None C' q)) by lia. symmetry. apply nth_error_None. auto. }
    rewrite At by auto. destruct (inside oc ldc m n q) eqn:J; [|reflexivity]. exfalso.
    unfold inside in J. apply andb_true_iff in J as [J J3]. apply andb_true_iff in J as [J1 J2].
    apply Nat.leb_le in J1. apply Nat.ltb_lt in J2, J3.
    destruct Q as [Q|Q]; [lia|].
    assert (D := Nat.div_mod (q - oc) ldc ltac:(lia)).
    assert (B : (ldc * ((q - oc) / ldc) <= ldc * (n - 1))%nat) by (apply Nat.mul_le_mono_l; lia). lia.
Qed.

Lemma gemm_ok (ta tb : bool) m n k A oa lda B ob ldb C oc ldc (a b : nat -> nat -> R) :
  (0 < m)%nat -> (0 < n)%nat -> (0 < k)%nat ->
  ((if ta then k else m) <= lda)%nat -> ((if tb then n else k) <= ldb)%nat -> (m <= ldc)%nat ->
  (oc + (n - 1) * ldc + m <= length C)%nat ->
  (forall i l, (i < m)%nat -> (l < k)%nat -> nth_error A (oa + pos ta lda i l) = Some (a i l)) ->
  (forall l j, (l < k)%nat -> (j < n)%nat -> nth_error B (ob + pos tb ldb l j) = Some (b l j)) ->
  exists C', gemm ta tb m n k A oa lda B ob ldb C oc ldc = Ok C' /\
    (forall i j, (i < m)%nat -> (j < n)%nat -> nth_error C' (oc + (i + j * ldc)) = Some (product k a b i j)) /\
    same_outside oc (oc + (n - 1) * ldc + m) C C'.
Proof.
  intros M N K La Lb Lc Z HA HB. unfold gemm.
  rewrite (proj2 (Nat.ltb_ge lda _)) by (destruct ta; lia). rewrite (proj2 (Nat.ltb_ge ldb _)) by (destruct tb; lia).
  rewrite (proj2 (Nat.ltb_ge ldc _)) by lia. cbn [orb].
  rewrite (proj2 (Nat.eqb_neq m 0)) by lia. rewrite (proj2 (Nat.eqb_neq n 0)) by lia. cbn [orb].
  rewrite (proj2 (Nat.ltb_ge (length C) _)) by lia.
  destruct (block_write C oc ldc m n (gemm_entry ta tb k A oa lda B ob ldb) (product k a b)) as (C' & O & R1 & R2); auto.
  - intros i j I J. unfold gemm_entry, product. apply osum_some. intros l L. rewrite HA, HB by auto. reflexivity.
  - exists C'. rewrite O. auto.
Qed.

Section Batch.
Variables (ta tb : bool) (m n k : nat) (A : mem) (oa lda sa : nat) (B : mem) (ob ldb sb : nat) (oc : nat).
Variables (a b : nat -> nat -> nat -> R).
Hypothesis M : (0 < m)%nat.
Hypothesis N : (0 < n)%nat.
Hypothesis K : (0 < k)%nat.
Hypothesis La : ((if ta then k else m) <= lda)%nat.
Hypothesis Lb : ((if tb then n else k) <= ldb)%nat.

Lemma batch_ok batch C :
  (forall s i l, (s < batch)%nat -> (i < m)%nat -> (l < k)%nat -> nth_error A (oa + s * sa + pos ta lda i l) = Some (a s i l)) ->
  (forall s l j, (s < batch)%nat -> (l < k)%nat -> (j < n)%nat -> nth_error B (ob + s * sb + pos tb ldb l j) = Some (b s l j)) ->
  (oc + batch * (m * n) <= length C)%nat ->
  exists C', gemm_batch batch ta tb m n k A oa lda sa B ob ldb sb C oc m (m * n) = Ok C' /\
    (forall s i j, (s < batch)%nat -> (i < m)%nat -> (j < n)%nat ->
       nth_error C' (oc + s * (m * n) + (i + j * m)) = Some (product k (a s) (b s) i j)) /\
    same_outside oc (oc + batch * (m * n)) C C'.
Proof.
  induction batch as [|t IH]; intros HA HB Z.
  - exists C. cbn. repeat split; auto; lia.
  - destruct IH as (C1 & E & R1 & [S1 S2]); [intros; apply HA; lia|intros; apply HB; lia|cbn in Z; lia|].
    cbn [gemm_batch]. rewrite E. cbn [obind].
    assert (Nn : ((n - 1) * m + m = m * n)%nat) by (destruct n; [lia|]; cbn; lia).
    destruct (gemm_ok ta tb m n k A (oa + t * sa) lda B (ob + t * sb) ldb C1 (oc + t * (m * n)) m (a t) (b t))
      as (C2 & E2 & Q1 & [Q2 Q3]); auto.
    { cbn in Z. rewrite S1. lia. }
    exists C2. rewrite E2. split; [reflexivity|]. split; [|split; [lia|]].
    + intros s i j Hs Hi Hj. destruct (Nat.eq_dec s t) as [->|Ne]; [apply Q1; auto|].
      rewrite Q3; [apply R1; auto; lia|]. left.
      assert (X : (s * (m * n) + m * n <= t * (m * n))%nat).
      { replace (s * (m * n) + m * n)%nat with (S s * (m * n))%nat by (cbn; lia). apply Nat.mul_le_mono_r. lia. }
      assert (Y : (j * m <= (n - 1) * m)%nat) by (apply Nat.mul_le_mono_r; lia). lia.
    + intros q Q. cbn in Q. rewrite Q3 by lia. apply S2. lia.
Qed.
End Batch.

Lemma stride_size_sym a : (getStrideSize a = match o_kind a with Mat => 0 | Strides _ => o_rows a * o_cols a end)%nat.
Proof. unfold getStrideSize, nrows, ncols. destruct (o_kind a); auto. destruct (o_trans a); auto. apply Nat.mul_comm. Qed.

Lemma matmul_main a b c A B : 
  (0 < nrows a)%nat -> (0 < ncols a)%nat -> (0 < ncols b)%nat -> (ncols a <= nrows b)%nat ->
  o_trans c = false -> o_rows c = nrows a -> o_cols c = ncols b ->
  (o_kind a = Mat -> o_kind b = Mat -> getStrides c = 1%nat) ->
  (o_off c + getStrides c * (o_rows c * o_cols c) <= length (o_mem c))%nat ->
  series (o_mem a) (o_off a) (match o_kind a with Mat => 0 | Strides _ => o_rows a * o_cols a end) (getStrides c) (o_rows a) (o_cols a) A ->
  series (o_mem b) (o_off b) (match o_kind b with Mat => 0 | Strides _ => o_rows b * o_cols b end) (getStrides c) (o_rows b) (o_cols b) B ->
  exists d, matmul a b c = Ok d /\
    (forall s, (s < getStrides c)%nat -> holds d (o_off c + s * (o_rows c * o_cols c)) (o_rows c) (o_cols c)
        (product (ncols a) (flipped (o_trans a) (A s)) (flipped (o_trans b) (B s)))) /\
    same_outside (o_off c) (o_off c + getStrides c * (o_rows c * o_cols c)) (o_mem c) d.
Proof.
  intros P1 P2 P3 E T R C S1 Z HA HB. rewrite <- stride_size_sym in HA, HB.
  assert (S2 : o_kind c = Mat -> getStrides c = 1%nat) by (intros Q; unfold getStrides; rewrite Q; reflexivity).
  assert (La : (if o_trans a then ncols a else nrows a) = o_rows a) by (unfold nrows, ncols; destruct (o_trans a); auto).
  assert (Lb : (if o_trans b then ncols b else nrows b) = o_rows b) by (unfold nrows, ncols; destruct (o_trans b); auto).
  assert (FA : forall s i l, (s < getStrides c)%nat -> (i < nrows a)%nat -> (l < ncols a)%nat ->
     nth_error (o_mem a) (o_off a + s * getStrideSize a + pos (o_trans a) (o_rows a) i l) = Some (flipped (o_trans a) (A s) i l)).
  { intros s i l Hs Hi Hl. unfold nrows, ncols in Hi, Hl. unfold pos, flipped.
    destruct (o_trans a); apply (HA s Hs); auto. }
  assert (FB : forall s l j, (s < getStrides c)%nat -> (l < ncols a)%nat -> (j < ncols b)%nat ->
     nth_error (o_mem b) (o_off b + s * getStrideSize b + pos (o_trans b) (o_rows b) l j) = Some (flipped (o_trans b) (B s) l j)).
  { intros s l j Hs Hl Hj. apply (fun q => Nat.lt_le_trans _ _ _ q E) in Hl. unfold nrows, ncols in Hl, Hj. unfold pos, flipped.
    destruct (o_trans b); apply (HB s Hs); auto. }
  assert (Fit1 : ((if o_trans a then ncols a else nrows a) <= o_rows a)%nat) by lia.
  assert (Fit2 : ((if o_trans b then ncols b else ncols a) <= o_rows b)%nat).
  { rewrite <- Lb. destruct (o_trans b); lia. }
  unfold matmul. rewrite La, Lb. rewrite R, C in *.
  assert (Batch : exists d, gemm_batch (getStrides c) (o_trans a) (o_trans b) (nrows a) (ncols b) (ncols a) (o_mem a) (o_off a) (o_rows a) (getStrideSize a)
      (o_mem b) (o_off b) (o_rows b) (getStrideSize b) (o_mem c) (o_off c) (nrows a) (nrows a * ncols b) = Ok d /\
    (forall s, (s < getStrides c)%nat -> holds d (o_off c + s * (nrows a * ncols b)) (nrows a) (ncols b)
        (product (ncols a) (flipped (o_trans a) (A s)) (flipped (o_trans b) (B s)))) /\
    same_outside (o_off c) (o_off c + getStrides c * (nrows a * ncols b)) (o_mem c) d).
  { destruct (batch_ok (o_trans a) (o_trans b) (nrows a) (ncols b) (ncols a) (o_mem a) (o_off a) (o_rows a) (getStrideSize a)
      (o_mem b) (o_off b) (o_rows b) (getStrideSize b) (o_off c) (fun s => flipped (o_trans a) (A s)) (fun s => flipped (o_trans b) (B s))
      P1 P3 P2 Fit1 Fit2 (getStrides c) (o_mem c)) as (d & D1 & D2 & D3); auto.
    exists d. split; [exact D1|]. split; [|exact D3]. intros s Hs i j Hi Hj. apply D2; auto. }
  assert (Sz : forall n, o_kind c = Strides n -> getStrideSize c = (nrows a * ncols b)%nat).
  { intros n Kc. rewrite stride_size_sym, Kc, R, C. reflexivity. }
  destruct (o_kind a) as [|na] eqn:Ka; destruct (o_kind b) as [|nb] eqn:Kb.
  1:{ rewrite S1 in * by auto. destruct Batch as (d & D1 & D2). exists d. split; [|exact D2].
      cbn [gemm_batch obind] in D1. rewrite !Nat.mul_0_l, !Nat.add_0_r in D1. exact D1. }
  all: destruct (o_kind c) as [|nc] eqn:Kc.
  2,4,6: rewrite (Sz nc eq_refl); exact Batch.
  all: rewrite S2 in * by auto; destruct Batch as (d & D1 & D2); exists d; split; [|exact D2];
    cbn [gemm_batch obind] in D1 |- *; rewrite !Nat.mul_0_l in D1 |- *; exact D1.
Qed.
