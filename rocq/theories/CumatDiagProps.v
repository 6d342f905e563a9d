(** C178: scaling the columns of a device matrix, and the lists of matrices made for inversion.

    include/gwmodelpp/utils/cumat.hpp:531-549 (cubatched), 815-837 (cuop_diagmul). *)
From Coq Require Import Reals Bool List Arith Lia Lra.
From Verif Require Import Outcome CumatModel CumatSpec CumatDiag.
Import ListNotations.
Local Open Scope R_scope.

(** When the destination has at least as many rows as the matrix and room for its columns, column [k] times the [k]-th element
    is at the top of column [k] of the destination, and nothing else changes before or after. *)
Theorem C178_scaled : forall a x c A X, o_trans a = false -> o_trans c = false -> (0 < o_rows a <= o_rows c)%nat -> (0 < o_cols a)%nat ->
  (o_off c + (o_cols a - 1) * o_rows c + o_rows a <= length (o_mem c))%nat ->
  holds (o_mem a) (o_off a) (o_rows a) (o_cols a) A -> (forall k, (k < o_cols a)%nat -> nth_error (o_mem x) k = Some (X k)) ->
  exists d, diagmul a x c = Ok d /\
    (forall i k, (i < o_rows a)%nat -> (k < o_cols a)%nat -> nth_error d (o_off c + (i + k * o_rows c)) = Some (A i k * X k)) /\
    same_outside (o_off c) (o_off c + (o_cols a - 1) * o_rows c + o_rows a) (o_mem c) d.
Proof. exact scaled_main. Qed.
Print Assumptions C178_scaled.
(** A matrix of one row and two columns. *)
Example C178_scaled_case : exists u v, diagmul (cumat 1 2 [1; 2]) (cumat 2 1 [3; 4]) (cumat 1 2 [0; 0]) = Ok [u; v] /\ u = 3 /\ v = 8.
Proof. eexists. eexists. split; [cbn -[Rplus Rmult]; reflexivity|]. split; lra. Qed.

(** Shapes that do not fit are not refused.  A destination with fewer rows is left as it was, and nothing is reported ... *)
Theorem C178_rows_refuted : forall a x c, o_trans a = false -> o_trans c = false -> (o_rows c < o_rows a)%nat -> diagmul a x c = Ok (o_mem c).
Proof. exact rows_main. Qed.
Print Assumptions C178_rows_refuted.
Example C178_rows_case : diagmul (cumat 2 1 [1; 2]) (cumat 1 1 [3]) (cumat 1 2 [0; 7]) = Ok [0; 7].
Proof. reflexivity. Qed.
(** ... a vector with fewer elements than the matrix has columns is read beyond its end ... *)
Theorem C178_short_refuted : forall a x c, o_trans a = false -> o_trans c = false -> (0 < o_rows a <= o_rows c)%nat ->
  (length (o_mem x) < o_cols a)%nat -> diagmul a x c = UB.
Proof. exact short_main. Qed.
Print Assumptions C178_short_refuted.
Example C178_short_case : diagmul (cumat 1 2 [1; 2]) (cumat 1 1 [3]) (cumat 1 2 [0; 0]) = UB.
Proof. reflexivity. Qed.
(** ... and a destination with too few columns is written beyond its end. *)
Theorem C178_small_refuted : forall a x c, o_trans a = false -> o_trans c = false -> (0 < o_rows a <= o_rows c)%nat -> (0 < o_cols a)%nat ->
  (length (o_mem c) < o_off c + (o_cols a - 1) * o_rows c + o_rows a)%nat -> diagmul a x c = UB.
Proof. exact small_main. Qed.
Print Assumptions C178_small_refuted.
Example C178_small_case : diagmul (cumat 1 2 [1; 2]) (cumat 2 1 [3; 4]) (cumat 1 1 [0]) = UB.
Proof. reflexivity. Qed.

(** The list made from a number of strides points at these: matrix [i] of the list has their shape and begins where stride [i] does. *)
Theorem C178_list : forall a n i, o_kind a = Strides n -> o_trans a = false ->
  b_count (batched_of_stride a) = n /\ b_rows (batched_of_stride a) = o_rows a /\ b_cols (batched_of_stride a) = o_cols a /\
  (o_off a + i * b_bias (batched_of_stride a) = o_off (view a i (S i)))%nat.
Proof. exact list_main. Qed.
Print Assumptions C178_list.
Example C178_list_case : b_bias (batched_of_stride (custride 2 2 3 (repeat 0 12))) = 4%nat.
Proof. reflexivity. Qed.
(** Made from one matrix, the list has an entry for every column, but the entries are one element apart and square: they overlap
    whenever there are at least two rows, and the last one reaches beyond the matrix.  Made from a matrix and a number, the
    entries have no rows. *)
Theorem C178_list_refuted : forall a batch, o_trans a = false -> (2 <= o_rows a)%nat -> (2 <= o_cols a <= o_rows a)%nat ->
  let b := batched_of_mat a in
  b_count b = o_cols a /\ b_bias b = 1%nat /\ b_rows b = o_rows a /\ b_cols b = o_rows a /\ (b_bias b < b_rows b * b_cols b)%nat /\
  (o_rows a * o_cols a < (b_count b - 1) * b_bias b + b_rows b * b_cols b)%nat /\ b_rows (batched_of_mat_n a batch) = 0%nat.
Proof. exact mat_list_main. Qed.
Print Assumptions C178_list_refuted.
Example C178_list_refuted_case : let a := cumat 2 2 [1; 2; 3; 4] in o_trans a = false /\ (2 <= o_rows a)%nat /\ (2 <= o_cols a <= o_rows a)%nat.
Proof. cbn. lia. Qed.
