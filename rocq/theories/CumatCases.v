(** Proofs about CumatModel.v: shapes that do not match, the device pipeline of basic GWR. *)
From Coq Require Import Reals Bool List Arith Lia Lra.
From Verif Require Import Outcome Sums CumatModel CumatSpec CumatProofs.
Import ListNotations.
Local Open Scope R_scope.

(** ** Shapes that do not match *)
Lemma gemm_throw (ta : bool) m n k A oa lda B ob ldb C oc ldc : (ldb < k)%nat -> gemm ta false m n k A oa lda B ob ldb C oc ldc = Throw.
Proof.
  intros H. unfold gemm. rewrite (proj2 (Nat.ltb_lt ldb _)) by lia. rewrite orb_true_r. reflexivity.
Qed.
Lemma mismatch_throws a b c : o_trans b = false -> (nrows b < ncols a)%nat -> (0 < getStrides c)%nat -> matmul a b c = Throw.
Proof.
  intros T H P. unfold matmul. rewrite T.
  assert (G : forall t sa sb sc, gemm_batch (S t) (o_trans a) false (nrows a) (ncols b) (ncols a) (o_mem a) (o_off a) (if o_trans a then ncols a else nrows a) sa
    (o_mem b) (o_off b) (nrows b) sb (o_mem c) (o_off c) (nrows a) sc = Throw).
  { intros t sa sb sc. induction t as [|t IH]; [cbn [gemm_batch obind]; apply gemm_throw; auto|].
    cbn [gemm_batch] in *. rewrite IH. reflexivity. }
  destruct (getStrides c) as [|q]; [lia|].
  destruct (o_kind a), (o_kind b); try apply G. apply gemm_throw; auto.
Qed.

Lemma oall_none l : In None l -> oall l = None.
Proof.
  induction l as [|a l IH]; intros I; [destruct I|]. cbn. destruct I as [->|I]; [reflexivity|].
  rewrite IH by auto. destruct a; reflexivity.
Qed.
Lemma osum_none l : In None l -> osum l = None.
Proof.
  induction l as [|a l IH]; intros I; [destruct I|]. cbn. destruct I as [->|I]; [reflexivity|].
  rewrite IH by auto. destruct a; reflexivity.
Qed.

(** A product that needs an element outside its operands. *)
Lemma gemm_ub (ta tb : bool) m n k A oa lda B ob ldb C oc ldc l :
  (0 < m)%nat -> (0 < n)%nat -> (l < k)%nat ->
  ((if ta then k else m) <= lda)%nat -> ((if tb then n else k) <= ldb)%nat -> (m <= ldc)%nat ->
  (length A <= oa + pos ta lda 0 l \/ length B <= ob + pos tb ldb l 0)%nat ->
  gemm ta tb m n k A oa lda B ob ldb C oc ldc = UB.
Proof.
  intros M N L La Lb Lc H. unfold gemm.
  rewrite (proj2 (Nat.ltb_ge lda _)) by (destruct ta; lia). rewrite (proj2 (Nat.ltb_ge ldb _)) by (destruct tb; lia).
  rewrite (proj2 (Nat.ltb_ge ldc _)) by lia. cbn [orb].
  rewrite (proj2 (Nat.eqb_neq m 0)) by lia. rewrite (proj2 (Nat.eqb_neq n 0)) by lia. cbn [orb].
  destruct (Nat.ltb_spec (length C) (oc + (n - 1) * ldc + m)); [reflexivity|].
  rewrite oall_none; [reflexivity|]. apply in_map_iff. exists oc. split; [|apply in_seq; split; [lia|]; cbn; eapply Nat.lt_le_trans; [|exact H0]; set (z := ((n - 1) * ldc)%nat); lia].
  unfold inside. rewrite Nat.sub_diag, Nat.mod_0_l, Nat.div_0_l by lia. rewrite Nat.leb_refl.
  rewrite !(proj2 (Nat.ltb_lt _ _)) by lia. cbn [andb].
  unfold gemm_entry. apply osum_none. apply in_map_iff. exists l. split; [|apply in_seq; lia].
  unfold omul. destruct H as [H|H]; apply nth_error_None in H; rewrite H; [reflexivity|]. destruct (nth_error A _); reflexivity.
Qed.

Lemma beyond_ub a b c : o_kind a = Mat -> o_kind b = Mat -> o_trans b = true -> (nrows b < ncols a)%nat ->
  (0 < nrows a)%nat -> (0 < ncols b)%nat ->
  length (o_mem b) = (o_off b + o_rows b * o_cols b)%nat -> matmul a b c = UB.
Proof.
  intros Ka Kb T H P1 P2 L. unfold matmul. rewrite Ka, Kb, T.
  assert (Nb : nrows b = o_cols b) by (unfold nrows; rewrite T; auto).
  assert (Cb : ncols b = o_rows b) by (unfold ncols; rewrite T; auto).
  apply (gemm_ub _ _ _ _ _ _ _ _ _ _ _ _ _ _ (nrows b)); auto; try lia.
  - right. unfold pos. rewrite L, Nb, Cb. rewrite (Nat.mul_comm (o_rows b)). lia.
Qed.

(** ** Scaling by a diagonal *)
Lemma diagmul_main a x c A X : o_trans a = false -> o_trans c = false -> (0 < o_rows a)%nat -> (0 < o_cols a)%nat ->
  o_rows c = o_rows a -> (o_off c + o_rows a * o_cols a <= length (o_mem c))%nat ->
  holds (o_mem a) (o_off a) (o_rows a) (o_cols a) A -> (forall k, (k < o_cols a)%nat -> nth_error (o_mem x) k = Some (X k)) ->
  exists d, diagmul a x c = Ok d /\ holds d (o_off c) (o_rows a) (o_cols a) (fun i k => A i k * X k) /\
    same_outside (o_off c) (o_off c + o_rows a * o_cols a) (o_mem c) d.
Proof.
  intros Ta Tc P1 P2 R Z HA HX. unfold diagmul, dgmm, nrows, ncols. rewrite Ta, Tc, R.
  rewrite (proj2 (Nat.ltb_ge (o_rows a) _)) by lia. cbn [orb].
  rewrite (proj2 (Nat.eqb_neq (o_rows a) 0)) by lia. rewrite (proj2 (Nat.eqb_neq (o_cols a) 0)) by lia. cbn [orb].
  assert (N : ((o_cols a - 1) * o_rows a + o_rows a = o_rows a * o_cols a)%nat) by (destruct (o_cols a); [lia|]; cbn; lia).
  rewrite (proj2 (Nat.ltb_ge (length (o_mem c)) _)) by lia.
  destruct (block_write (o_mem c) (o_off c) (o_rows a) (o_rows a) (o_cols a)
    (fun i j => omul (nth_error (o_mem a) (o_off a + pos false (o_rows a) i j)) (nth_error (o_mem x) j))
    (fun i k => A i k * X k)) as (d & E & H1 & H2); auto; try lia.
  - intros i j I J. unfold pos. rewrite HA, HX by auto. reflexivity.
  - exists d. rewrite E. split; [reflexivity|]. split; [exact H1|].
    rewrite <- Nat.add_assoc, N in H2. exact H2.
Qed.

(** ** Memory as matrices *)
Lemma holds_self d off rows cols : (off + rows * cols <= length d)%nat ->
  holds d off rows cols (fun i j => nth (off + (i + j * rows)) d 0).
Proof.
  intros L i j I J. apply nth_error_nth'.
  assert ((i + j * rows < rows * cols)%nat); [|lia].
  replace (rows * cols)%nat with ((cols - 1) * rows + rows)%nat by (destruct cols; [lia|]; cbn; lia).
  assert (j * rows <= (cols - 1) * rows)%nat by (apply Nat.mul_le_mono_r; lia). lia.
Qed.
Lemma holds_unique d off rows cols M M' : holds d off rows cols M -> holds d off rows cols M' ->
  forall i j, (i < rows)%nat -> (j < cols)%nat -> M i j = M' i j.
Proof. intros H H' i j I J. specialize (H i j I J). rewrite (H' i j I J) in H. congruence. Qed.
Lemma holds_ext d off rows cols M M' : (forall i j, (i < rows)%nat -> (j < cols)%nat -> M i j = M' i j) ->
  holds d off rows cols M -> holds d off rows cols M'.
Proof. intros E H i j I J. rewrite <- E by auto. auto. Qed.
Lemma holds_outside d d' lo hi off rows cols M : same_outside lo hi d d' -> (off + rows * cols <= lo \/ hi <= off)%nat ->
  holds d off rows cols M -> holds d' off rows cols M.
Proof.
  intros [_ S] O H i j I J. rewrite S; [apply H; auto|].
  assert ((i + j * rows < rows * cols)%nat); [|lia].
  replace (rows * cols)%nat with ((cols - 1) * rows + rows)%nat by (destruct cols; [lia|]; cbn; lia).
  assert (j * rows <= (cols - 1) * rows)%nat by (apply Nat.mul_le_mono_r; lia). lia.
Qed.
Lemma product_ext k A B A' B' i j : (forall l, (l < k)%nat -> A i l = A' i l) -> (forall l, (l < k)%nat -> B l j = B' l j) ->
  product k A B i j = product k A' B' i j.
Proof. intros HA HB. unfold product. apply bigsum_ext. intros l L. rewrite HA, HB by auto. reflexivity. Qed.

(** ** Weighting *)
Lemma weigh_main nvar ndp G xt (X : nat -> nat -> R) : (0 < nvar)%nat -> (0 < ndp)%nat ->
  holds xt 0 nvar ndp (fun a k => X k a) ->
  forall ws j (Wt : nat -> nat -> R) xtw,
  (forall i w k, nth_error ws i = Some w -> (k < ndp)%nat -> nth_error w k = Some (Wt (j + i)%nat k)) ->
  ((j + length ws) * (nvar * ndp) <= length xtw)%nat ->
  exists d, weigh (cumat nvar ndp xt) ws j nvar ndp G xtw = Ok d /\
    (forall i, (i < length ws)%nat -> holds d ((j + i) * (nvar * ndp)) nvar ndp (fun a k => X k a * Wt (j + i)%nat k)) /\
    same_outside (j * (nvar * ndp)) ((j + length ws) * (nvar * ndp)) xtw d.
Proof.
  intros P1 P2 HX ws. induction ws as [|w ws IH]; intros j Wt xtw HW L.
  - exists xtw. cbn. repeat split; auto; lia.
  - cbn [weigh]. cbn [length] in L.
    destruct (diagmul_main (cumat nvar ndp xt) (cumat ndp 1 w) (view (custride nvar ndp G xtw) j (S j)) (fun a k => X k a) (Wt j))
      as (d1 & E1 & H1 & S1); auto.
    { cbn. rewrite Nat.mul_add_distr_r in L. cbn in L. lia. }
    { intros k K. cbn in K. rewrite <- (Nat.add_0_r j). apply (HW 0%nat); auto. }
    rewrite E1. cbn [obind]. cbn in H1, S1.
    destruct (IH (S j) Wt d1) as (d & E & H & S).
    { intros i v k I K. replace (S j + i)%nat with (j + S i)%nat by lia. apply (HW (S i)); auto. }
    { destruct S1 as [S1 _]. rewrite S1. replace (S j + length ws)%nat with (j + S (length ws))%nat by lia. auto. }
    exists d. split; [exact E|]. split.
    + intros i I. destruct i as [|i].
      * rewrite Nat.add_0_r. apply (holds_outside d1 _ _ _ _ _ _ _ S); auto. left. cbn. lia.
      * replace (j + Datatypes.S i)%nat with (Datatypes.S j + i)%nat by lia. apply H. cbn in I. lia.
    + destruct S as [Sa Sb], S1 as [Sc Sd]. split; [lia|]. intros q Q. cbn [length] in Q.
      assert (Q1 : (j * (nvar * ndp) + nvar * ndp = Datatypes.S j * (nvar * ndp))%nat) by (cbn; lia).
      assert (Q2 : (Datatypes.S j * (nvar * ndp) <= (j + Datatypes.S (length ws)) * (nvar * ndp))%nat) by (apply Nat.mul_le_mono_r; lia).
      assert (Q3 : (Datatypes.S j + length ws = j + Datatypes.S (length ws))%nat) by lia.
      rewrite Sb by (rewrite Q3; lia). apply Sd. lia.
Qed.

(** ** Inversion *)
Lemma block_some d off size : (off + size <= length d)%nat -> block d off size = Some (firstn size (skipn off d)).
Proof. intros H. unfold block. rewrite (proj2 (Nat.leb_le _ _)) by auto. reflexivity. Qed.
Lemma put_length d off v : (off + length v <= length d)%nat -> length (put d off v) = length d.
Proof. intros H. unfold put. rewrite !app_length, firstn_length, skipn_length. lia. Qed.
Lemma put_at d off v i : (off + length v <= length d)%nat -> (i < length v)%nat -> nth_error (put d off v) (off + i) = nth_error v i.
Proof.
  intros H I. unfold put. assert (F : length (firstn off d) = off) by (rewrite firstn_length; lia).
  rewrite nth_error_app2 by lia. rewrite F. rewrite nth_error_app1 by lia. f_equal. lia.
Qed.
Lemma put_out d off v q : (off + length v <= length d)%nat -> (q < off \/ off + length v <= q)%nat ->
  nth_error (put d off v) q = nth_error d q.
Proof.
  intros H Q. unfold put. assert (F : length (firstn off d) = off) by (rewrite firstn_length; lia).
  destruct Q as [Q|Q].
  - rewrite nth_error_app1 by lia. rewrite <- (firstn_skipn off d) at 2. rewrite nth_error_app1 by lia. reflexivity.
  - rewrite nth_error_app2 by lia. rewrite nth_error_app2 by lia. rewrite F.
    rewrite <- (firstn_skipn (off + length v) d) at 2. rewrite nth_error_app2; rewrite firstn_length; [|lia].
    f_equal. lia.
Qed.

Section Inv.
Variable inv : nat -> mem -> option mem.
Variable n : nat.
Hypothesis shaped : forall v w, inv n v = Some w -> length v = (n * n)%nat -> length w = (n * n)%nat.

Lemma block_len (d : mem) off : (off + n * n <= length d)%nat -> length (firstn (n * n) (skipn off d)) = (n * n)%nat.
Proof. intros H. rewrite firstn_length, skipn_length. lia. Qed.

Lemma matinv_main count d r info : (count * (n * n) <= length d)%nat -> (count * (n * n) <= length r)%nat -> (count <= length info)%nat ->
  exists r' info', matinv inv count n (n * n) d r info = Ok (r', info') /\ length r' = length r /\ length info' = length info /\
    forall s, (s < count)%nat -> nth_error info' s = Some true ->
      exists w, inv n (firstn (n * n) (skipn (s * (n * n)) d)) = Some w /\
        forall i, (i < n * n)%nat -> nth_error r' (s * (n * n) + i) = nth_error w i.
Proof.
  induction count as [|c IH]; intros Ld Lr Li.
  - exists r, info. cbn. repeat split; auto. intros; lia.
  - destruct IH as (r1 & i1 & E & L1 & L2 & H); try (cbn in *; lia).
    cbn [matinv]. rewrite E. cbn [obind fst snd]. cbn in Ld, Lr.
    rewrite (block_some d) by lia. rewrite (block_some r1) by lia.
    set (v := firstn (n * n) (skipn (c * (n * n)) d)). assert (Lv : length v = (n * n)%nat) by (apply block_len; lia).
    assert (Nth : forall b s, (s <= c)%nat -> nth_error (firstn c i1 ++ b :: skipn (S c) i1) s = if Nat.eqb s c then Some b else nth_error i1 s).
    { intros b s Hs. assert (F : length (firstn c i1) = c) by (rewrite firstn_length; lia).
      destruct (Nat.eqb_spec s c) as [->|Ne].
      - rewrite nth_error_app2 by lia. rewrite F, Nat.sub_diag. reflexivity.
      - rewrite nth_error_app1 by lia. rewrite <- (firstn_skipn c i1) at 2. rewrite nth_error_app1 by lia. reflexivity. }
    assert (Len : forall b, length (firstn c i1 ++ b :: skipn (S c) i1) = length info).
    { intros b. rewrite app_length. cbn [length]. rewrite firstn_length, skipn_length. lia. }
    destruct (inv n v) as [w|] eqn:W.
    + assert (Lw : length w = (n * n)%nat) by (apply (shaped v); auto).
      eexists _, _. split; [reflexivity|]. rewrite put_length by lia. rewrite Len. split; [auto|]. split; [reflexivity|].
      intros s Hs. rewrite Nth by lia. destruct (Nat.eqb_spec s c) as [->|Ne].
      * intros _. exists w. split; [exact W|]. intros i Hi. apply put_at; lia.
      * intros T. destruct (H s) as (w' & W' & R); [lia|auto|]. exists w'. split; [exact W'|]. intros i Hi.
        rewrite put_out; [apply R; auto|lia|]. left.
        assert (Q : (s * (n * n) + n * n <= c * (n * n))%nat).
        { replace (s * (n * n) + n * n)%nat with (S s * (n * n))%nat by (cbn; lia). apply Nat.mul_le_mono_r. lia. }
        lia.
    + eexists _, _. split; [reflexivity|]. rewrite Len. split; [auto|]. split; [reflexivity|].
      intros s Hs. rewrite Nth by lia. destruct (Nat.eqb_spec s c) as [->|Ne]; [discriminate|]. intros T. apply H; auto. lia.
Qed.
End Inv.

Lemma nth_block (d : mem) off size i : (i < size)%nat -> nth_error (firstn size (skipn off d)) i = nth_error d (off + i).
Proof.
  intros H. revert off i H. 
  assert (F : forall size (l : mem) i, (i < size)%nat -> nth_error (firstn size l) i = nth_error l i).
  { intros sz; induction sz as [|sz IH]; intros l i I; [lia|]. destruct l; [destruct i; reflexivity|]. destruct i; cbn; auto. apply IH. lia. }
  intros off i H. rewrite F by auto. clear F. revert d. induction off as [|o IH]; intros d; [reflexivity|].
  destruct d; cbn; [destruct i; reflexivity|]. apply IH.
Qed.
Lemma holds_block d off n M : (off + n * n <= length d)%nat -> holds d off n n M -> holds (firstn (n * n) (skipn off d)) 0 n n M.
Proof.
  intros L H i j I J. rewrite nth_block; [apply H; auto|].
  replace (n * n)%nat with ((n - 1) * n + n)%nat by (destruct n; [lia|]; cbn; lia).
  assert (j * n <= (n - 1) * n)%nat by (apply Nat.mul_le_mono_r; lia). lia.
Qed.
