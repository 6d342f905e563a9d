(** Property theorems C58-C62: geographically weighted summary statistics.
    [bigsum m f] is f 0 + ... + f (m-1); [W] is the normalised weight vector. *)
From Coq Require Import Reals List Permutation.
From Verif Require Import Outcome XReal KernelSpec Sums GwssModel GwssSpec GwssCases GwssValues.
Import ListNotations.
Local Open Scope R_scope.

(** C58: the local mean lies within any bounds on the positively weighted values; the variance is
    not negative and is zero exactly when all positively weighted values coincide; both respond
    to affine transformations. *)
Theorem C58_moments : forall n w x, proper_weights n w -> exists W, normalise n w = Some W /\
  (forall lo hi, (forall j, (j < n)%nat -> 0 < w j -> lo <= x j <= hi) -> lo <= gw_mean n W x <= hi) /\
  0 <= gw_var n W x /\
  (gw_var n W x = 0 <-> forall j k, (j < n)%nat -> (k < n)%nat -> 0 < w j -> 0 < w k -> x j = x k) /\
  (forall a b, gw_mean n W (fun j => a * x j + b) = a * gw_mean n W x + b /\
               gw_var n W (fun j => a * x j + b) = a * a * gw_var n W x).
Proof. exact C58_main. Qed.
Print Assumptions C58_moments.
Example C58_case : proper_weights 3 (fun j => INR j).
Proof. exact weights3. Qed.

(** C58: they are the weighted mean and the weighted mean of squared deviations. *)
Theorem C58_meaning : forall n w x, 0 < bigsum n w -> exists W, normalise n w = Some W /\
  gw_mean n W x * bigsum n w = bigsum n (fun j => w j * x j) /\
  gw_var n W x * bigsum n w = bigsum n (fun j => w j * (x j - gw_mean n W x) ^ 2).
Proof. exact C58_meaning_main. Qed.
Print Assumptions C58_meaning.

(** C58: standard deviation, skewness and coefficient of variation are those of the weighted
    distribution, with mean m and variance v; the skewness is NaN for v = 0. *)
Theorem C58_shape : forall n w x, proper_weights n w ->
  let T := bigsum n w in
  let m := bigsum n (fun j => w j * x j) / T in
  let v := bigsum n (fun j => w j * (x j - m) ^ 2) / T in
  exists W, normalise n w = Some W /\
  xval (gw_sd n W x) = Some (sqrt v) /\
  (0 < v -> xval (gw_skew n W x) = Some (bigsum n (fun j => w j * (x j - m) ^ 3) / T / (v * sqrt v))) /\
  (v = 0 -> gw_skew n W x = XN) /\
  (m <> 0 -> xval (gw_cv n W x) = Some (sqrt v / m)).
Proof. exact C58_shape_main. Qed.
Print Assumptions C58_shape.
Example C58_shape_case : proper_weights 3 (fun j => INR j).
Proof. exact weights3. Qed.

(** C59: the local Pearson correlation is NaN or a number in [-1,1], a number when both local
    variances are positive; symmetric; invariant under positive affine transformations. *)
Theorem C59_pearson : forall n w xj xk, proper_weights n w -> exists W, normalise n w = Some W /\
  (corr n xj xk W = XN \/ finite_in (-1) 1 (corr n xj xk W)) /\
  (0 < gw_var n W xj -> 0 < gw_var n W xk -> finite_in (-1) 1 (corr n xj xk W)) /\
  xval (corr n xj xk W) = xval (corr n xk xj W) /\
  (forall a b c d, 0 < a -> 0 < c ->
     xval (corr n (fun j => a * xj j + b) (fun j => c * xk j + d) W) = xval (corr n xj xk W)).
Proof. exact C59_main. Qed.
Print Assumptions C59_pearson.

(** C59: likewise the local Spearman correlation; without ties it is invariant under strictly
    increasing transformations of either variable. *)
Theorem C59_spearman : forall sort_index, sorts_indices sort_index ->
  forall n w xj xk, proper_weights n w -> exists W, normalise n w = Some W /\
  let rho a b := spearman sort_index n a b W in
  (rho xj xk = XN \/ finite_in (-1) 1 (rho xj xk)) /\
  xval (rho xj xk) = xval (rho xk xj) /\
  (forall g h, (forall i j, (i < n)%nat -> (j < n)%nat -> xj i = xj j -> i = j) ->
     (forall i j, (i < n)%nat -> (j < n)%nat -> xk i = xk j -> i = j) ->
     (forall a b, a < b -> g a < g b) -> (forall a b, a < b -> h a < h b) ->
     rho (fun j => g (xj j)) (fun j => h (xk j)) = rho xj xk).
Proof. exact C59_spearman_main. Qed.
Print Assumptions C59_spearman.
Example C59_case : sorts_indices isort_index /\ proper_weights 3 (fun j => INR j).
Proof. exact (conj isort_index_ok weights3). Qed.

(** C59: the local covariance is the unbiased weighted one, the local correlation the weighted
    Pearson correlation; NaN if a variance is zero. *)
Theorem C59_meaning : forall n w xj xk, proper_weights n w ->
  let T := bigsum n w in
  let mean x := bigsum n (fun j => w j * x j) / T in
  let cov x z := bigsum n (fun j => w j * ((x j - mean x) * (z j - mean z))) / T in
  exists W, normalise n w = Some W /\
  (forall i k, (i < n)%nat -> (k < n)%nat -> i <> k -> 0 < w i -> 0 < w k ->
     xval (covwt n xj xk W) = Some (cov xj xk / (1 - bigsum n (fun j => (w j / T) ^ 2)))) /\
  (0 < cov xj xj -> 0 < cov xk xk -> xval (corr n xj xk W) = Some (cov xj xk / sqrt (cov xj xj * cov xk xk))) /\
  (cov xj xj = 0 \/ cov xk xk = 0 -> corr n xj xk W = XN).
Proof. exact C59_meaning_main. Qed.
Print Assumptions C59_meaning.
(** The Spearman correlation is the Pearson correlation of the ranks (C61). *)
Theorem C59_spearman_meaning : forall sort_index, sorts_indices sort_index ->
  forall n w xj xk, proper_weights n w -> exists W, normalise n w = Some W /\
  spearman sort_index n xj xk W =
  corr n (fun i => nth i (rank sort_index (map xj (seq 0 n))) 0) (fun i => nth i (rank sort_index (map xk (seq 0 n))) 0) W.
Proof. exact C59_spearman_meaning_main. Qed.
Print Assumptions C59_spearman_meaning.

(** C60, full statement: for every non-empty column and non-negative weights the quartiles are
    computed, are observed values and are in order.  Proved when no smallest observation weighs
    more than 1/4; each quartile q of level k is then the value with weight at most k strictly
    below it while every larger observed value has more than k at or below it.
    Missing: the other weights, see the next theorem. *)
Theorem C60_quartiles_partial : forall sort_index, sorts_indices sort_index ->
  forall n x w, (0 < n)%nat -> (forall j, (j < n)%nat -> 0 <= w j) ->
  (forall j, (j < n)%nat -> (forall k, (k < n)%nat -> x j <= x k) -> w j <= 1 / 4) ->
  exists q1 q2 q3, findq sort_index n x w = Ok (q1, q2, q3) /\ q1 <= q2 <= q3 /\
    forall q k, In (q, k) [(q1, 1 / 4); (q2, 2 / 4); (q3, 3 / 4)] ->
      (exists j, (j < n)%nat /\ q = x j) /\
      weight_where n x w (fun v => Rltb v q) <= k /\
      (forall j, (j < n)%nat -> q < x j -> k < weight_where n x w (fun v => Rleb v (x j))).
Proof. exact C60_main. Qed.
Print Assumptions C60_quartiles_partial.
Example C60_case : (0 < 5)%nat /\ (forall j, (j < 5)%nat -> 0 <= (fun _ : nat => 1 / 5) j) /\
  (forall j, (j < 5)%nat -> (forall k, (k < 5)%nat -> INR j <= INR k) -> (fun _ : nat => 1 / 5) j <= 1 / 4).
Proof. exact C60_case_main. Qed.

(** C60: whenever the quartiles are computed, the median is an observed value, the interquartile
    range is not negative, and the quantile imbalance is in [-1,1], or NaN if the range is 0. *)
Theorem C60_stats : forall sort_index, sorts_indices sort_index ->
  forall n x w med iqr qi, (0 < n)%nat -> quartile_stats sort_index n x w = Ok (med, iqr, qi) ->
  (exists j, (j < n)%nat /\ med = x j) /\ 0 <= iqr /\ (0 < iqr -> finite_in (-1) 1 qi) /\ (iqr = 0 -> qi = XN).
Proof. exact C60_stats_main. Qed.
Print Assumptions C60_stats.

(** C60: the reported median, interquartile range and imbalance are computed from the quartiles. *)
Theorem C60_from_quartiles : forall sort_index n x w q1 q2 q3, findq sort_index n x w = Ok (q1, q2, q3) ->
  exists qi, quartile_stats sort_index n x w = Ok (q2, q3 - q1, qi) /\
  (q1 <> q3 -> xval qi = Some ((2 * q2 - q3 - q1) / (q3 - q1))).
Proof. exact C60_from_quartiles_main. Qed.
Print Assumptions C60_from_quartiles.

(** C60 fails whenever every smallest observation weighs more than 1/4: an index below zero wraps
    round and memory outside the data is read. *)
Theorem C60_out_of_range : forall sort_index, sorts_indices sort_index -> forall n x w, (0 < n)%nat ->
  (forall j, (j < n)%nat -> (forall k, (k < n)%nat -> x j <= x k) -> 1 / 4 < w j) -> findq sort_index n x w = UB.
Proof. exact C60_ub_main. Qed.
Print Assumptions C60_out_of_range.
(** Witness: the three values 0, 1, 2 with weight 1/3 each. *)
Theorem C60_quartiles_refuted : exists n x w, (0 < n)%nat /\ (forall j, (j < n)%nat -> 0 <= w j) /\ bigsum n w = 1 /\
  forall sort_index, sorts_indices sort_index -> findq sort_index n x w = UB.
Proof. exact C60_refuted_main. Qed.
Print Assumptions C60_quartiles_refuted.

(** C61: ranks are a permutation of 1..n, preserve the order, and the rank of a value lies above
    the number of smaller values and is at most the number of values not larger. *)
Theorem C61_ranks : forall sort_index, sorts_indices sort_index -> forall l,
  Permutation (rank sort_index l) (map INR (seq 1 (length l))) /\
  (forall i j, (i < length l)%nat -> (j < length l)%nat -> nth i l 0 < nth j l 0 ->
     nth i (rank sort_index l) 0 < nth j (rank sort_index l) 0) /\
  (forall j, (j < length l)%nat ->
     INR (count_lt (nth j l 0) l) + 1 <= nth j (rank sort_index l) 0 <= INR (count_le (nth j l 0) l)).
Proof. exact C61_main. Qed.
Print Assumptions C61_ranks.
Example C61_case : sorts_indices isort_index.
Proof. exact isort_index_ok. Qed.

(** C62: with two or more variables the columns are the values of f on a list that holds every
    pair j < k (with j = 0 only, in the "first only" mode) exactly once, and the list fills the
    allocated columns. *)
Theorem C62_pairs : forall first_only nVar, (2 <= nVar)%nat -> exists pairs : list (nat * nat),
  NoDup pairs /\
  (forall j k, In (j, k) pairs <-> (j < k < nVar)%nat /\ (first_only = true -> j = 0%nat)) /\
  length pairs = corr_cols first_only nVar /\
  forall f, corr_row first_only nVar f = Ok (map (fun p => f (fst p) (snd p)) pairs).
Proof. exact C62_main. Qed.
Print Assumptions C62_pairs.
Theorem C62_columns : forall nVar, (2 <= nVar)%nat ->
  corr_cols true nVar = (nVar - 1)%nat /\ (2 * corr_cols false nVar = nVar * (nVar - 1))%nat.
Proof. exact C62_count_main. Qed.
Print Assumptions C62_columns.
(** With fewer than two variables an exception is thrown. *)
Theorem C62_too_few : forall first_only nVar f, (nVar < 2)%nat -> corr_row first_only nVar f = Throw.
Proof. exact C62_throw_main. Qed.
Print Assumptions C62_too_few.
Example C62_case : corr_pairs false 3 = [(0, 1); (0, 2); (1, 2)]%nat /\ corr_pairs true 3 = [(0, 1); (0, 2)]%nat.
Proof. split; reflexivity. Qed.
