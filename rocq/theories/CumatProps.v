(** C142, C143: device matrices and the regressions computed with them. *)
From Coq Require Import Reals Bool List Arith Lia Lra.
From Verif Require Import Outcome Sums CudaModel CumatModel CumatSpec CumatProofs CumatCases CumatGroup CumatLoop CumatExample.
Import ListNotations.
Local Open Scope R_scope.

(** C142: for operands of fitting shapes, matrices or any number of strides, transposed or not, each matrix of the destination
    holds the product of the corresponding operands, and the memory around the destination is unchanged.  A matrix is used
    again for every stride. *)
Theorem C142_product_partial : forall a b c A B,
  (0 < nrows a)%nat -> (0 < ncols a)%nat -> (0 < ncols b)%nat -> ncols a = nrows b ->
  o_trans c = false -> o_rows c = nrows a -> o_cols c = ncols b ->
  (o_kind a = Mat -> o_kind b = Mat -> getStrides c = 1%nat) ->
  (o_off c + getStrides c * (o_rows c * o_cols c) <= length (o_mem c))%nat ->
  series (o_mem a) (o_off a) (match o_kind a with Mat => 0 | Strides _ => o_rows a * o_cols a end) (getStrides c) (o_rows a) (o_cols a) A ->
  series (o_mem b) (o_off b) (match o_kind b with Mat => 0 | Strides _ => o_rows b * o_cols b end) (getStrides c) (o_rows b) (o_cols b) B ->
  exists d, matmul a b c = Ok d /\
    (forall s, (s < getStrides c)%nat -> holds d (o_off c + s * (o_rows c * o_cols c)) (o_rows c) (o_cols c)
        (product (ncols a) (flipped (o_trans a) (A s)) (flipped (o_trans b) (B s)))) /\
    same_outside (o_off c) (o_off c + getStrides c * (o_rows c * o_cols c)) (o_mem c) d.
Proof. intros a b c A B P1 P2 P3 E. apply matmul_main; auto. rewrite E. apply le_n. Qed.
Print Assumptions C142_product_partial.
(** Two strides times the transpose of a matrix. *)
Example C142_product_case :
  let a := custride 1 2 2 [1; 2; 3; 4] in let b := t (cumat 1 2 [5; 6]) in let c := custride 1 1 2 [0; 0] in
  (0 < nrows a)%nat /\ (0 < ncols a)%nat /\ (0 < ncols b)%nat /\ ncols a = nrows b /\ o_rows c = nrows a /\ o_cols c = ncols b /\
  exists u v, matmul a b c = Ok [u; v] /\ u = 17 /\ v = 39.
Proof. cbn -[matmul]. repeat (split; [lia|]). eexists. eexists. split; [cbn -[Rplus Rmult]; reflexivity|]. split; lra. Qed.

(** A product constructed as a new object has the shape of the product, as many strides as the left operand (or the right one,
    if only that has strides), and exactly these products. *)
Theorem C142_new_partial : forall a b A B,
  (0 < nrows a)%nat -> (0 < ncols a)%nat -> (0 < ncols b)%nat -> ncols a = nrows b ->
  series (o_mem a) (o_off a) (match o_kind a with Mat => 0 | Strides _ => o_rows a * o_cols a end) (matmul_strides a b) (o_rows a) (o_cols a) A ->
  series (o_mem b) (o_off b) (match o_kind b with Mat => 0 | Strides _ => o_rows b * o_cols b end) (matmul_strides a b) (o_rows b) (o_cols b) B ->
  exists c, matmul_new a b = Ok c /\ nrows c = nrows a /\ ncols c = ncols b /\ getStrides c = matmul_strides a b /\ o_off c = 0%nat /\
    length (o_mem c) = (matmul_strides a b * (nrows a * ncols b))%nat /\
    forall s, (s < matmul_strides a b)%nat -> holds (o_mem c) (s * (nrows a * ncols b)) (nrows a) (ncols b)
        (product (ncols a) (flipped (o_trans a) (A s)) (flipped (o_trans b) (B s))).
Proof. intros a b A B P1 P2 P3 E. apply matmul_new_main; auto. rewrite E. apply le_n. Qed.
Print Assumptions C142_new_partial.
Example C142_new_case : exists c u v, matmul_new (custride 1 2 2 [1; 2; 3; 4]) (t (cumat 1 2 [5; 6])) = Ok c /\ o_mem c = [u; v] /\ u = 17 /\ v = 39.
Proof. eexists. eexists. eexists. split; [cbn -[Rplus Rmult]; reflexivity|]. split; [reflexivity|]. split; lra. Qed.

(** A second operand with too few rows is refused, if it is not transposed ... *)
Theorem C142_mismatch_partial : forall a b c, o_trans b = false -> (nrows b < ncols a)%nat -> (0 < getStrides c)%nat -> matmul a b c = Throw.
Proof. exact mismatch_throws. Qed.
Print Assumptions C142_mismatch_partial.
Example C142_mismatch_case : matmul (cumat 1 2 [1; 2]) (cumat 1 1 [3]) (cumat 1 1 [0]) = Throw.
Proof. reflexivity. Qed.
(** ... but for a transposed one the product reads beyond its memory ... *)
Theorem C142_beyond_refuted : forall a b c, o_kind a = Mat -> o_kind b = Mat -> o_trans b = true -> (nrows b < ncols a)%nat ->
  (0 < nrows a)%nat -> (0 < ncols b)%nat ->
  length (o_mem b) = (o_off b + o_rows b * o_cols b)%nat -> matmul a b c = UB.
Proof. exact beyond_ub. Qed.
Print Assumptions C142_beyond_refuted.
Example C142_beyond_case : matmul (cumat 1 2 [1; 2]) (t (cumat 1 1 [3])) (cumat 1 1 [0]) = UB.
Proof. reflexivity. Qed.
(** ... and a second operand with too many rows is cut off silently. *)
Theorem C142_truncated_refuted : forall a b c A B,
  (0 < nrows a)%nat -> (0 < ncols a)%nat -> (0 < ncols b)%nat -> (ncols a < nrows b)%nat ->
  o_trans c = false -> o_rows c = nrows a -> o_cols c = ncols b ->
  (o_kind a = Mat -> o_kind b = Mat -> getStrides c = 1%nat) ->
  (o_off c + getStrides c * (o_rows c * o_cols c) <= length (o_mem c))%nat ->
  series (o_mem a) (o_off a) (match o_kind a with Mat => 0 | Strides _ => o_rows a * o_cols a end) (getStrides c) (o_rows a) (o_cols a) A ->
  series (o_mem b) (o_off b) (match o_kind b with Mat => 0 | Strides _ => o_rows b * o_cols b end) (getStrides c) (o_rows b) (o_cols b) B ->
  exists d, matmul a b c = Ok d /\
    forall s, (s < getStrides c)%nat -> holds d (o_off c + s * (o_rows c * o_cols c)) (o_rows c) (o_cols c)
        (product (ncols a) (flipped (o_trans a) (A s)) (flipped (o_trans b) (B s))).
Proof.
  intros a b c A B P1 P2 P3 E T R C K Z HA HB.
  destruct (matmul_main a b c A B) as (d & H1 & H2 & _); auto; [lia|]. exists d. auto.
Qed.
Print Assumptions C142_truncated_refuted.
Example C142_truncated_case : exists u, matmul (cumat 1 2 [1; 2]) (cumat 3 1 [3; 4; 5]) (cumat 1 1 [0]) = Ok [u] /\ u = 11.
Proof. eexists. split; [cbn -[Rplus Rmult]; reflexivity|]. lra. Qed.

(** C143: when the device regression over the locations lo .. hi - 1 returns, with at most 32 columns, the column of every such location is
    I_e X' W_e y for a matrix I_e with I_e X' W_e X = 1; the other columns are zero.  For every number of points, group size,
    data and weights. *)
Theorem C143_fit_partial : forall inv nvar ndp G nout lo hi xt y (X : nat -> nat -> R) (Y : nat -> R) W (WW : nat -> nat -> R) info s',
  (0 < nvar <= 32)%nat -> (0 < ndp)%nat -> (0 < G)%nat -> inverts inv ->
  holds xt 0 nvar ndp (fun a k => X k a) -> (forall k, (k < ndp)%nat -> nth_error y k = Some (Y k)) ->
  (forall e k, (lo <= e < hi)%nat -> (k < ndp)%nat -> nth_error (W e) k = Some (WW e k)) -> (lo <= hi <= nout)%nat ->
  length info = G ->
  cuda_fit inv W lo hi nvar ndp G nout xt y (cuda_start nvar ndp G nout info) = Ok s' ->
  (forall e, (lo <= e < hi)%nat -> exists I,
    (forall a b, (a < nvar)%nat -> (b < nvar)%nat ->
       product nvar I (fun c d => bigsum ndp (fun k => X k c * WW e k * X k d)) a b = if Nat.eqb a b then 1 else 0) /\
    holds (d_betas s') (e * nvar) nvar 1 (fun a _ => bigsum nvar (fun b => I a b * bigsum ndp (fun k => X k b * WW e k * Y k)))) /\
  (forall e, (e < lo \/ hi <= e < nout)%nat -> holds (d_betas s') (e * nvar) nvar 1 (fun _ _ => 0)).
Proof. exact fit_start. Qed.
Print Assumptions C143_fit_partial.
(** Three points in groups of two. *)
Example C143_fit_case : (0 < 1 <= 32)%nat /\ inverts inv1 /\ holds ex_x 0 1 3 (fun a k => nth k ex_x 0) /\
  (forall k, (k < 3)%nat -> nth_error ex_y k = Some (nth k ex_y 0)) /\
  (forall e k, (0 <= e < 3)%nat -> (k < 3)%nat -> nth_error (ex_w e) k = Some (nth k (ex_w e) 0)) /\
  exists s', cuda_fit inv1 ex_w 0 3 1 3 2 3 ex_x ex_y (cuda_start 1 3 2 3 [false; false]) = Ok s'.
Proof. split; [lia|]. split; [exact inv1_inverts|]. split; [exact ex_X|]. split; [exact ex_Y|]. split; [exact ex_W|]. exact ex_fit. Qed.

(** More than 32 columns: nothing is inverted and nothing is noticed (provided the uninitialised status words are zero); the
    coefficients of the group are all zero, whatever the data. *)
Theorem C143_many_columns_refuted : forall inv nvar ndp G nout xt y (X : nat -> nat -> R) (Y : nat -> R) ws (Wt : nat -> nat -> R) first info,
  (32 < nvar)%nat -> (0 < ndp)%nat -> (0 < G)%nat ->
  holds xt 0 nvar ndp (fun a k => X k a) -> (forall k, (k < ndp)%nat -> nth_error y k = Some (Y k)) ->
  (forall i w k, nth_error ws i = Some w -> (k < ndp)%nat -> nth_error w k = Some (Wt i k)) ->
  (length ws <= G)%nat -> (first + length ws <= nout)%nat -> info = repeat true G ->
  exists s', cuda_group inv nvar ndp G nout xt y ws first (cuda_start nvar ndp G nout info) = Ok s' /\
  forall i, (i < length ws)%nat -> holds (d_betas s') ((first + i) * nvar) nvar 1 (fun _ _ => 0).
Proof. exact many_start. Qed.
Print Assumptions C143_many_columns_refuted.
(** 33 columns, one point. *)
Example C143_many_columns_case : (32 < 33)%nat /\ holds (repeat 1 33) 0 33 1 (fun _ _ => 1) /\ (length [[1]] <= 2)%nat /\ (0 + length [[1]] <= 1)%nat.
Proof.
  split; [lia|]. split; [|cbn; lia]. intros a k Ha Hk. assert (k = 0%nat) by lia. subst. rewrite Nat.mul_0_l, Nat.add_0_r.
  apply nth_error_repeat. exact Ha.
Qed.

(** The hat rows of a group: row first + i of the hat matrix is x_(first+i) I_i X' W_i, computed into the strides of the buffers
    when the group and all unused strides lie within the data ... *)
Theorem C143_hat_partial : forall inv nvar ndp G nout first xt y ws (X : nat -> nat -> R) (Y : nat -> R) (Wt : nat -> nat -> R),
  (0 < nvar <= 32)%nat -> (0 < ndp)%nat -> (0 < G)%nat -> inverts inv ->
  holds xt 0 nvar ndp (fun a k => X k a) -> length xt = (nvar * ndp)%nat ->
  (forall k, (k < ndp)%nat -> nth_error y k = Some (Y k)) ->
  (forall i w k, nth_error ws i = Some w -> (k < ndp)%nat -> nth_error w k = Some (Wt i k)) ->
  (length ws <= G)%nat -> (first + length ws <= nout)%nat ->
  forall s s' u_c u_s, allocated nvar ndp G nout s -> cuda_group inv nvar ndp G nout xt y ws first s = Ok s' ->
  (first + G <= ndp)%nat -> length u_c = (G * (nvar * ndp))%nat -> length u_s = (G * ndp)%nat ->
  exists c h, cuda_hat nvar ndp G xt first (length ws) s' u_c u_s = Ok (c, h) /\
  forall i, (i < length ws)%nat -> exists I,
    (forall a b, (a < nvar)%nat -> (b < nvar)%nat ->
       product nvar I (fun c d => bigsum ndp (fun k => X k c * Wt i k * X k d)) a b = if Nat.eqb a b then 1 else 0) /\
    holds c (i * (nvar * ndp)) nvar ndp (fun a k => bigsum nvar (fun b => I a b * (X k b * Wt i k))) /\
    holds h (i * ndp) 1 ndp (fun _ k => bigsum nvar (fun a => X (first + i)%nat a * bigsum nvar (fun b => I a b * (X k b * Wt i k)))).
Proof. exact group_hat. Qed.
Print Assumptions C143_hat_partial.
(** ... but the last group, if not full, reads beyond the data: the number of strides is that of the buffer. *)
Theorem C143_tail_refuted : forall nvar ndp G nout xt, (0 < nvar)%nat -> (0 < ndp)%nat -> (0 < G)%nat ->
  forall (ws : list mem) first, (length ws <= G)%nat -> (first + length ws <= nout)%nat ->
  forall s u_c u_s, length xt = (nvar * ndp)%nat -> allocated nvar ndp G nout s -> (ndp < first + G)%nat -> (first <= ndp)%nat ->
  length u_c = (G * (nvar * ndp))%nat -> cuda_hat nvar ndp G xt first (length ws) s u_c u_s = UB.
Proof. exact hat_tail. Qed.
Print Assumptions C143_tail_refuted.
(** The group {2} of three points in groups of two; the group {0, 1} fits. *)
Example C143_tail_case : allocated 1 3 2 3 (cuda_start 1 3 2 3 [false; false]) /\ (3 < 2 + 2)%nat /\ (0 + 2 <= 3)%nat /\
  (exists s', cuda_group inv1 1 3 2 3 ex_x ex_y [ex_w 0; ex_w 1] 0 (cuda_start 1 3 2 3 [false; false]) = Ok s') /\
  (forall i w k, nth_error [ex_w 0; ex_w 1] i = Some w -> (k < 3)%nat -> nth_error w k = Some (nth k (ex_w i) 0)).
Proof. split; [apply start_allocated; reflexivity|]. split; [lia|]. split; [lia|]. split; [exact ex_group|exact ex_WG]. Qed.
(** The selection criterion makes new objects instead and is correct for every group. *)
Theorem C143_hat_criterion_partial : forall inv nvar ndp G nout first xt y ws (X : nat -> nat -> R) (Y : nat -> R) (Wt : nat -> nat -> R),
  (0 < nvar <= 32)%nat -> (0 < ndp)%nat -> (0 < G)%nat -> inverts inv ->
  holds xt 0 nvar ndp (fun a k => X k a) -> length xt = (nvar * ndp)%nat ->
  (forall k, (k < ndp)%nat -> nth_error y k = Some (Y k)) ->
  (forall i w k, nth_error ws i = Some w -> (k < ndp)%nat -> nth_error w k = Some (Wt i k)) ->
  (length ws <= G)%nat -> (first + length ws <= nout)%nat ->
  forall s s', allocated nvar ndp G nout s -> cuda_group inv nvar ndp G nout xt y ws first s = Ok s' ->
  (first + length ws <= ndp)%nat ->
  exists c h, cuda_hat_new nvar ndp G xt first (length ws) s' = Ok (c, h) /\ getStrides h = length ws /\
  forall i, (i < length ws)%nat -> exists I,
    (forall a b, (a < nvar)%nat -> (b < nvar)%nat ->
       product nvar I (fun c d => bigsum ndp (fun k => X k c * Wt i k * X k d)) a b = if Nat.eqb a b then 1 else 0) /\
    holds (o_mem h) (i * ndp) 1 ndp (fun _ k => bigsum nvar (fun a => X (first + i)%nat a * bigsum nvar (fun b => I a b * (X k b * Wt i k)))).
Proof. exact group_hat_new. Qed.
Print Assumptions C143_hat_criterion_partial.
