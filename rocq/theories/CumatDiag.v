(** Scaling the columns of a device matrix: what happens when the shapes do not fit. *)
From Coq Require Import Reals Bool List Arith Lia Lra.
From Verif Require Import Outcome Sums CumatModel CumatSpec CumatProofs CumatCases.
Import ListNotations.
Local Open Scope R_scope.

Lemma diag_rows a x c : (nrows c < nrows a)%nat -> diagmul a x c = Ok (o_mem c).
Proof.
  intros L. unfold diagmul, dgmm. rewrite (proj2 (Nat.ltb_lt (nrows c) _)) by lia. rewrite orb_true_r. reflexivity.
Qed.
Lemma diag_fits a x c : (0 < nrows a <= nrows c)%nat -> (0 < ncols a)%nat ->
  diagmul a x c = if Nat.ltb (length (o_mem c)) (o_off c + (ncols a - 1) * nrows c + nrows a) then UB
  else match oall (map (fun q => if inside (o_off c) (nrows c) (nrows a) (ncols a) q
                                 then omul (nth_error (o_mem a) (o_off a + pos false (nrows a) ((q - o_off c) mod nrows c) ((q - o_off c) / nrows c)))
                                           (nth_error (o_mem x) ((q - o_off c) / nrows c))
                                 else nth_error (o_mem c) q) (seq 0 (length (o_mem c)))) with
       | Some C' => Ok C'
       | None => UB
       end.
Proof.
  intros L P. unfold diagmul, dgmm.
  rewrite (proj2 (Nat.ltb_ge (nrows a) _)) by lia. rewrite (proj2 (Nat.ltb_ge (nrows c) _)) by lia.
  rewrite (proj2 (Nat.eqb_neq (nrows a) 0)) by lia. rewrite (proj2 (Nat.eqb_neq (ncols a) 0)) by lia. reflexivity.
Qed.
Lemma diag_small a x c : (0 < nrows a <= nrows c)%nat -> (0 < ncols a)%nat ->
  (length (o_mem c) < o_off c + (ncols a - 1) * nrows c + nrows a)%nat -> diagmul a x c = UB.
Proof. intros L P Z. rewrite diag_fits by auto. rewrite (proj2 (Nat.ltb_lt _ _)) by lia. reflexivity. Qed.
Lemma diag_short a x c : (0 < nrows a <= nrows c)%nat -> (length (o_mem x) < ncols a)%nat -> diagmul a x c = UB.
Proof.
  intros L P. rewrite diag_fits by lia.
  destruct (Nat.ltb_spec (length (o_mem c)) (o_off c + (ncols a - 1) * nrows c + nrows a)) as [Z|Z]; [reflexivity|].
  destruct (oall _) as [C'|] eqn:E; [|reflexivity]. exfalso. apply oall_inv in E.
  set (k := length (o_mem x)) in *.
  assert (B : (k * nrows c <= (ncols a - 1) * nrows c)%nat) by (apply Nat.mul_le_mono_r; lia).
  set (q := (o_off c + k * nrows c)%nat).
  assert (Q : (q < length (o_mem c))%nat) by (unfold q; lia).
  assert (N := f_equal (fun l => nth_error l q) E). cbn beta in N.
  rewrite !nth_error_map in N. rewrite (nth_error_nth' (seq 0 _) 0%nat) in N by (rewrite seq_length; exact Q).
  rewrite seq_nth in N by exact Q. cbn [option_map plus] in N.
  assert (D : (q - o_off c = 0 + k * nrows c)%nat) by (unfold q; lia).
  assert (Md : ((q - o_off c) mod nrows c = 0)%nat) by (rewrite D, Nat.mod_add by lia; apply Nat.mod_small; lia).
  assert (Dv : ((q - o_off c) / nrows c = k)%nat) by (rewrite D, Nat.div_add by lia; rewrite Nat.div_small by lia; lia).
  assert (I : inside (o_off c) (nrows c) (nrows a) (ncols a) q = true).
  { unfold inside. rewrite Md, Dv. rewrite (proj2 (Nat.leb_le _ _)) by (unfold q; lia). rewrite !(proj2 (Nat.ltb_lt _ _)) by lia. reflexivity. }
  rewrite I, Md, Dv in N. rewrite (proj2 (nth_error_None (o_mem x) k)) in N by (unfold k; lia).
  assert (O : forall o : option R, omul o None = None) by (intros [?|]; reflexivity). rewrite O in N.
  destruct (nth_error C' q); discriminate.
Qed.
(** A destination with more rows: every column lands at the top of a column of the destination. *)
Lemma diag_tall a x c A X : o_trans a = false -> (0 < nrows a <= nrows c)%nat -> (0 < ncols a)%nat ->
  (o_off c + (ncols a - 1) * nrows c + nrows a <= length (o_mem c))%nat ->
  holds (o_mem a) (o_off a) (o_rows a) (o_cols a) A -> (forall k, (k < ncols a)%nat -> nth_error (o_mem x) k = Some (X k)) ->
  exists d, diagmul a x c = Ok d /\
    (forall i k, (i < nrows a)%nat -> (k < ncols a)%nat -> nth_error d (o_off c + (i + k * nrows c)) = Some (A i k * X k)) /\
    same_outside (o_off c) (o_off c + (ncols a - 1) * nrows c + nrows a) (o_mem c) d.
Proof.
  intros T L P Z HA HX. rewrite diag_fits by auto. rewrite (proj2 (Nat.ltb_ge _ _)) by lia.
  destruct (block_write (o_mem c) (o_off c) (nrows c) (nrows a) (ncols a)
    (fun i k => omul (nth_error (o_mem a) (o_off a + pos false (nrows a) i k)) (nth_error (o_mem x) k)) (fun i k => A i k * X k)) as (d & E & H & S); try lia.
  { intros i k I K. rewrite HX by exact K. unfold pos, nrows. rewrite T. rewrite HA; [reflexivity|..]; revert I K; unfold nrows, ncols; rewrite T; auto. }
  rewrite E. exists d. auto.
Qed.
Lemma scaled_main a x c A X : o_trans a = false -> o_trans c = false -> (0 < o_rows a <= o_rows c)%nat -> (0 < o_cols a)%nat ->
  (o_off c + (o_cols a - 1) * o_rows c + o_rows a <= length (o_mem c))%nat ->
  holds (o_mem a) (o_off a) (o_rows a) (o_cols a) A -> (forall k, (k < o_cols a)%nat -> nth_error (o_mem x) k = Some (X k)) ->
  exists d, diagmul a x c = Ok d /\
    (forall i k, (i < o_rows a)%nat -> (k < o_cols a)%nat -> nth_error d (o_off c + (i + k * o_rows c)) = Some (A i k * X k)) /\
    same_outside (o_off c) (o_off c + (o_cols a - 1) * o_rows c + o_rows a) (o_mem c) d.
Proof. intros Ta Tc. assert (D := diag_tall a x c A X Ta). unfold nrows, ncols in D. rewrite Ta, Tc in D. exact D. Qed.
Lemma rows_main a x c : o_trans a = false -> o_trans c = false -> (o_rows c < o_rows a)%nat -> diagmul a x c = Ok (o_mem c).
Proof. intros Ta Tc L. apply diag_rows. unfold nrows. rewrite Ta, Tc. exact L. Qed.
Lemma short_main a x c : o_trans a = false -> o_trans c = false -> (0 < o_rows a <= o_rows c)%nat ->
  (length (o_mem x) < o_cols a)%nat -> diagmul a x c = UB.
Proof. intros Ta Tc L P. apply diag_short; unfold nrows, ncols; rewrite Ta, ?Tc; assumption. Qed.
Lemma small_main a x c : o_trans a = false -> o_trans c = false -> (0 < o_rows a <= o_rows c)%nat -> (0 < o_cols a)%nat ->
  (length (o_mem c) < o_off c + (o_cols a - 1) * o_rows c + o_rows a)%nat -> diagmul a x c = UB.
Proof. intros Ta Tc L P Z. apply diag_small; unfold nrows, ncols; rewrite Ta, ?Tc; assumption. Qed.
Lemma list_main a n i : o_kind a = Strides n -> o_trans a = false ->
  b_count (batched_of_stride a) = n /\ b_rows (batched_of_stride a) = o_rows a /\ b_cols (batched_of_stride a) = o_cols a /\
  (o_off a + i * b_bias (batched_of_stride a) = o_off (view a i (S i)))%nat.
Proof. intros K T. cbn. unfold getStrides, getStrideSize, nrows, ncols. rewrite K, T. auto. Qed.
Lemma mat_list_main a batch : o_trans a = false -> (2 <= o_rows a)%nat -> (2 <= o_cols a <= o_rows a)%nat ->
  let b := batched_of_mat a in
  b_count b = o_cols a /\ b_bias b = 1%nat /\ b_rows b = o_rows a /\ b_cols b = o_rows a /\ (b_bias b < b_rows b * b_cols b)%nat /\
  (o_rows a * o_cols a < (b_count b - 1) * b_bias b + b_rows b * b_cols b)%nat /\ b_rows (batched_of_mat_n a batch) = 0%nat.
Proof. intros T R C. cbn. unfold nrows, ncols. rewrite T. do 4 (split; [reflexivity|]). split; [nia|]. split; [nia|reflexivity]. Qed.
