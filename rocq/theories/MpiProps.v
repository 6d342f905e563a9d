(** Property theorems C35-C38: the MPI decomposition.  Vocabulary: MpiSpec.v. *)
From Coq Require Import Reals List Arith ZArith Lia Lra Permutation.
From Verif Require Import Outcome Sums MpiModel MpiSpec MpiProofs.
Import ListNotations.

(** C35: every index a worker visits is an observation, and every observation is
    visited by exactly one worker. *)
Theorem C35_partition : forall n w size, range_size n w = Ok size ->
  (forall s i, s < w -> In i (visited (work_range n size s)) -> i < n) /\
  (forall i, i < n -> exists! s, s < w /\ In i (visited (work_range n size s))).
Proof. exact C35_main. Qed.
Print Assumptions C35_partition.
(** Visited one worker after the other, the observations come in the serial order. *)
Theorem C35_in_order : forall n w size, range_size n w = Ok size ->
  flat_map (fun s => visited (work_range n size s)) (seq 0 w) = seq 0 n.
Proof. exact C35_concat. Qed.
Print Assumptions C35_in_order.
Example C35_case : range_size 7 3 = Ok 3 /\ work_range 7 3 2 = (6, 7).
Proof. split; reflexivity. Qed.

(** C35: the range is well formed (first < second <= n) for every worker exactly when
    every worker's first index is an observation.
    Missing from the full statement: well-formed ranges for all worker counts, refuted
    below. *)
Theorem C35_well_formed_partial : forall n w size, range_size n w = Ok size ->
  (all_busy n size w <->
   forall s, s < w -> fst (work_range n size s) < snd (work_range n size s) <= n).
Proof. exact C35_busy. Qed.
Print Assumptions C35_well_formed_partial.
Example C35_busy_case : range_size 7 3 = Ok 3 /\ all_busy 7 3 3.
Proof. split; [reflexivity|intros s L; lia]. Qed.

(** C35 refuted as to bounds: with 5 observations and 4 workers the last worker's range
    is [6, 5) and its unsigned length is 2^64 - 1. *)
Theorem C35_bounds_refuted : exists n w size s, range_size n w = Ok size /\ s < w /\
  n < fst (work_range n size s) /\ uword_sub (work_range n size s) = (2 ^ 64 - 1)%Z.
Proof. exists 5, 4, 2, 3. split; [reflexivity|split; [lia|split; [simpl; lia|reflexivity]]]. Qed.
Print Assumptions C35_bounds_refuted.

(** C36: when every worker has an observation, all workers send their messages, and for
    every arrival order of the messages the master ends with exactly the serial
    coefficients, standard-error terms, hat-matrix traces and Q diagonal.
    Missing from the full statement: worker counts that leave some worker without an
    observation; see [C36_idle_worker_refuted]. *)
Theorem C36_any_order_partial : forall C (zero_col : C) beta se sh0 sh1 qd n size w stored msgs arrivals,
  (Z.of_nat n < 2 ^ 64)%Z -> range_size n w = Ok size -> all_busy n size w ->
  collect (map (worker_sends C zero_col beta se sh0 sh1 qd n size stored) (seq 1 (w - 1))) = Ok msgs ->
  Permutation arrivals (concat msgs) ->
  fit_mpi C zero_col beta se sh0 sh1 qd n size w stored arrivals =
  Done (serial_result n beta se sh0 sh1 qd).
Proof. exact C36_full. Qed.
Print Assumptions C36_any_order_partial.
Theorem C36_all_send : forall C (zero_col : C) beta se sh0 sh1 qd n size w stored,
  (Z.of_nat n < 2 ^ 64)%Z -> range_size n w = Ok size -> all_busy n size w ->
  exists msgs,
  collect (map (worker_sends C zero_col beta se sh0 sh1 qd n size stored) (seq 1 (w - 1))) = Ok msgs.
Proof. exact C36_sends. Qed.
Print Assumptions C36_all_send.
Example C36_case : (Z.of_nat 7 < 2 ^ 64)%Z /\ range_size 7 3 = Ok 3 /\ all_busy 7 3 3.
Proof. split; [reflexivity|exact C35_busy_case]. Qed.

(** C36 refuted for worker counts leaving a worker idle: that worker throws before it
    sends anything, and the master never completes, whatever the others send. *)
Theorem C36_idle_worker_refuted :
  (forall C (zero_col : C) beta se sh0 sh1 qd n size w stored s,
  range_size n w = Ok size -> 1 <= s < w -> n <= s * size ->
  worker_sends C zero_col beta se sh0 sh1 qd n size stored s = Throw /\
  forall arrivals r, (forall m, In m arrivals -> fst (fkey C m) <> s) ->
    fit_mpi C zero_col beta se sh0 sh1 qd n size w stored arrivals <> Done r) /\
  (exists n w size s, range_size n w = Ok size /\ 1 <= s < w /\ n <= s * size).
Proof. exact (conj C36_blocks (ex_intro _ 4 (ex_intro _ 3 (ex_intro _ 2 (ex_intro _ 2
  (conj eq_refl (conj (conj (le_S _ _ (le_n 1)) (le_n 3)) (le_n 4)))))))). Qed.
Print Assumptions C36_idle_worker_refuted.

(** C36 for the criterion loops, where the master adds zero-padded messages: the serial
    coefficients for every arrival order, idle workers included. *)
Theorem C36_summed : forall b n size w, range_size n w = Ok size -> forall arrivals,
  Permutation arrivals (map (fun s => (s, padded b n size s)) (seq 1 (w - 1))) ->
  sum_mpi b n size w arrivals = Done (map b (seq 0 n)).
Proof. exact sum_main. Qed.
Print Assumptions C36_summed.
Example C36_summed_case : range_size 5 4 = Ok 2 /\ exists arrivals : list (nat * list R),
  Permutation arrivals (map (fun s => (s, padded (fun i => INR i) 5 2 s)) (seq 1 3)) /\
  map fst arrivals = [3; 2; 1].
Proof.
  split; [reflexivity|].
  exists (rev (map (fun s => (s, padded (fun i => INR i) 5 2 s)) (seq 1 3))).
  split; [apply Permutation_sym, Permutation_rev|reflexivity].
Qed.

(** C37: with two or more processes the combined coefficient is the larger of the serial
    one and zero, so it is the serial vector exactly when no coefficient is negative.
    Missing from the full statement: negative coefficients, refuted below. *)
Theorem C37_combined_partial : forall b n size w, range_size n w = Ok size -> 2 <= w ->
  max_mpi b n size w = map (fun i => Rmax (b i) 0) (seq 0 n).
Proof. exact max_main. Qed.
Print Assumptions C37_combined_partial.
Theorem C37_exactly_when_partial : forall b n size w, range_size n w = Ok size -> 2 <= w ->
  (max_mpi b n size w = map b (seq 0 n) <-> forall i, i < n -> (0 <= b i)%R).
Proof. exact C37_exact. Qed.
Print Assumptions C37_exactly_when_partial.
Example C37_case : range_size 5 2 = Ok 3 /\ 2 <= 2.
Proof. split; [reflexivity|lia]. Qed.
Theorem C37_refuted : exists b n size w, range_size n w = Ok size /\ 2 <= w /\
  max_mpi b n size w <> map b (seq 0 n).
Proof.
  exists (fun _ => -1)%R, 2, 1, 2. split; [reflexivity|split; [lia|]].
  intros E. rewrite (C37_exact _ 2 1 2 eq_refl (le_n 2)) in E.
  specialize (E 0 ltac:(lia)). lra.
Qed.
Print Assumptions C37_refuted.

(** C38: if the element counts fit a C int, every process ends with its own block of rows
    of A*B: entry (i, j) is the full inner product of row i of its block of A with
    column j of the stacked B.
    Missing from the full statement: counts beyond INT_MAX, refuted below. *)
Theorem C38_product_partial : forall rows n As Bs pi, distributed rows n As Bs -> pi < length rows ->
  counts_fit rows pi = true ->
  exists c, mat_mul_mpi rows n As Bs pi = Ok c /\ length c = nth pi rows 0 * n /\
  forall i j, i < nth pi rows 0 -> j < n ->
    at_ (nth pi rows 0) c i j =
    bigsum (total rows) (fun k => (at_ (nth pi rows 0%nat) (nth pi As []) i k * stacked rows Bs k j)%R).
Proof. exact C38_main. Qed.
Print Assumptions C38_product_partial.
Example C38_case : distributed [2; 1] 2 [[1; 2; 3; 4; 5; 6]; [7; 8; 9]]%R [[1; 2; 3; 4]; [5; 6]]%R /\
  counts_fit [2; 1] 0 = true.
Proof.
  split; [|reflexivity]. split; [reflexivity|split; [reflexivity|]].
  intros p L. destruct p as [|[|p]]; simpl in L; try lia; split; reflexivity.
Qed.

(** C38 refuted for large blocks: with 50000 rows on a process the element count
    overflows int, which is undefined behaviour. *)
Theorem C38_overflow_refuted : exists k A B, distributed [k] k [A] [B] /\
  mat_mul_mpi [k] k [A] [B] 0 = UB.
Proof. exact C38_overflow_witness. Qed.
Print Assumptions C38_overflow_refuted.
