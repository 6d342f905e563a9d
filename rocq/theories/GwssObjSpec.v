(** Vocabulary of C168. *)
From Coq Require Import Reals Bool List Arith Permutation.
From Verif Require Import XReal Sums GwssSpec GwssObjModel.
Import ListNotations.
Local Open Scope R_scope.

(** Element of a matrix, and its numerical value. *)
Definition entry (m : matrix) (i j : nat) : option xd := match nth_error m i with Some r => nth_error r j | None => None end.
Definition has (m : matrix) (i j : nat) (r : R) : Prop := exists v, entry m i j = Some v /\ xval v = Some r.
Definition shape (m : matrix) (r c : nat) : Prop := length m = r /\ Forall (fun row => length row = c) m.
Definition null (m : matrix) (r c : nat) : Prop := shape m r c /\ forall i j, (i < r)%nat -> (j < c)%nat -> entry m i j = Some (XF 0).

(** Weighted mean, covariance and third moment. *)
Definition wmean (n : nat) (w x : nat -> R) : R := bigsum n (fun j => w j * x j) / bigsum n w.
Definition wcov (n : nat) (w x z : nat -> R) : R := bigsum n (fun j => w j * ((x j - wmean n w x) * (z j - wmean n w z))) / bigsum n w.
Definition wthird (n : nat) (w x : nat -> R) : R := bigsum n (fun j => w j * (x j - wmean n w x) ^ 3) / bigsum n w.
(** The quartile of level k: an observed value with a share of the weights of at most k below it, while every larger
    observed value has more at or below it. *)
Definition share (n : nat) (w : nat -> R) : nat -> R := fun j => w j / bigsum n w.
Definition is_quartile (n : nat) (w x : nat -> R) (k q : R) : Prop :=
  (exists j, (j < n)%nat /\ q = x j) /\ weight_where n x (share n w) (fun v => Rltb v q) <= k /\
  (forall j, (j < n)%nat -> q < x j -> k < weight_where n x (share n w) (fun v => Rleb v (x j))).
(** No smallest observation has more than a quarter of the weights (C60). *)
Definition light (n : nat) (w x : nat -> R) : Prop :=
  forall j, (j < n)%nat -> (forall k, (k < n)%nat -> x j <= x k) -> share n w j <= 1 / 4.

(** The locations computed: without OpenMP a request to stop ends the loop, with it it skips one location. *)
Definition worked (p : par) (stop : nat -> bool) (i : nat) : Prop :=
  match p with OpenMP => stop i = false | _ => forall j, (j <= i)%nat -> stop j = false end.

(** Objects after any calls. *)
Inductive reachable (sort_index : list R -> list nat) : obj -> Prop :=
| R_create d n w : reachable sort_index (create d n w)
| R_assign s o : reachable sort_index o -> reachable sort_index (assign s o)
| R_returns stop early order o o' : reachable sort_index o -> run sort_index stop early order o = Returns o' -> reachable sort_index o'
| R_throws stop early order o o' : reachable sort_index o -> run sort_index stop early order o = Throws o' -> reachable sort_index o'.
(** A run changes only the status and the results. *)
Definition same_settings (o o' : obj) : Prop :=
  o_data o' = o_data o /\ o_locs o' = o_locs o /\ o_weight o' = o_weight o /\ o_quantile o' = o_quantile o /\ o_first o' = o_first o /\
  o_mode o' = o_mode o /\ o_par o' = o_par o /\ o_calc o' = o_calc o.

(** Ranks: 1 to n in the order of the values. *)
Definition ranks (n : nat) (x r : nat -> R) : Prop :=
  Permutation (map r (seq 0 n)) (map INR (seq 1 n)) /\ forall i k, (i < n)%nat -> (k < n)%nat -> x i < x k -> r i < r k.

(** The results of averages: location i, variable j. *)
Definition averages (n : nat) (w x : nat -> R) (s : stats) (i j : nat) : Prop :=
  let m := wmean n w x in let v := wcov n w x x in
  has (s_mean s) i j m /\ has (s_var s) i j v /\ has (s_sd s) i j (sqrt v) /\
  (0 < v -> has (s_skew s) i j (wthird n w x / (v * sqrt v))) /\ (m <> 0 -> has (s_cv s) i j (sqrt v / m)).
Definition quantiles (n : nat) (w x : nat -> R) (s : stats) (i j : nat) : Prop :=
  exists q1 q2 q3, q1 <= q2 <= q3 /\
    is_quartile n w x (1 / 4) q1 /\ is_quartile n w x (2 / 4) q2 /\ is_quartile n w x (3 / 4) q3 /\
    has (s_median s) i j q2 /\ has (s_iqr s) i j (q3 - q1) /\ (q1 <> q3 -> has (s_qi s) i j ((2 * q2 - q3 - q1) / (q3 - q1))).
(** The results of correlations: location i, the variables xj and xk in column t. *)
Definition correlations (n : nat) (w xj xk : nat -> R) (s : stats) (i t : nat) : Prop :=
  (forall a b, (a < n)%nat -> (b < n)%nat -> a <> b -> 0 < w a -> 0 < w b ->
     has (s_cov s) i t (wcov n w xj xk / (1 - bigsum n (fun k => (share n w k) ^ 2)))) /\
  (0 < wcov n w xj xj -> 0 < wcov n w xk xk -> has (s_corr s) i t (wcov n w xj xk / sqrt (wcov n w xj xj * wcov n w xk xk))) /\
  (exists rj rk, ranks n xj rj /\ ranks n xk rk /\
     (0 < wcov n w rj rj -> 0 < wcov n w rk rk -> has (s_scorr s) i t (wcov n w rj rk / sqrt (wcov n w rj rj * wcov n w rk rk)))).
