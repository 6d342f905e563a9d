(** Model of geographically weighted summary statistics.
    Source: GWSS.h:76-79 (covwt), 90-93 (corwt), 97-102 (rank); GWSS.cpp:24-49 (findq), 63-100 (run),
    102-132 (GWAverageSerial), 134-173 (GWCorrelationSerial); the OpenMP versions (176-253) have
    the same loop bodies.
    A column of n observations is a function from indices below n; sums are exact.  Quotients
    and roots whose operand may vanish are extended doubles. *)
From Coq Require Import Reals Bool List Arith.
From Verif Require Import Outcome XReal RSort Sums.
Import ListNotations.
Local Open Scope R_scope.

Definition column (n : nat) (x : nat -> R) : list R := map x (seq 0 n).

(** "Wi = w / sumw" (112-113); [None] when the weights sum to zero (entries NaN or infinite). *)
Definition normalise (n : nat) (w : nat -> R) : option (nat -> R) :=
  if Reqb (bigsum n w) 0 then None else Some (fun j => w j / bigsum n w).

(** "trans(Wi) * mX" (114), one column *)
Definition gw_mean (n : nat) (W x : nat -> R) : R := bigsum n (fun j => W j * x j).
(** "centerized", "mLVar.row(i)" (126-127) *)
Definition gw_var (n : nat) (W x : nat -> R) : R :=
  let m := gw_mean n W x in bigsum n (fun j => W j * ((x j - m) * (x j - m))).
(** 128-129, 132 *)
Definition gw_sd (n : nat) (W x : nat -> R) : xd := xsqrt (XF (gw_var n W x)).
Definition gw_skew (n : nat) (W x : nat -> R) : xd :=
  let m := gw_mean n W x in
  xdiv (XF (bigsum n (fun j => W j * ((x j - m) * (x j - m) * (x j - m)))))
       (xmul (XF (gw_var n W x)) (gw_sd n W x)).
Definition gw_cv (n : nat) (W x : nat -> R) : xd := xdiv (gw_sd n W x) (XF (gw_mean n W x)).

(** covwt (h:76-79); sqrt(w) is a number since weights are not negative *)
Definition covwt (n : nat) (x1 x2 W : nat -> R) : xd :=
  let m1 := bigsum n (fun j => x1 j * W j) in
  let m2 := bigsum n (fun j => x2 j * W j) in
  xdiv (XF (bigsum n (fun j => (sqrt (W j) * (x1 j - m1)) * (sqrt (W j) * (x2 j - m2)))))
       (XF (1 - bigsum n (fun j => W j * W j))).
(** corwt (h:90-93) *)
Definition corwt (n : nat) (x1 x2 W : nat -> R) : xd :=
  xdiv (covwt n x1 x2 W) (xsqrt (xmul (covwt n x1 x1 W) (covwt n x2 x2 W))).
(** mCorrmat(i, tag) (155-160) *)
Definition corr (n : nat) (xj xk W : nat -> R) : xd :=
  let sumW2 := bigsum n (fun j => W j * W j) in
  let covjj := xdiv (XF (gw_var n W xj)) (XF (1 - sumW2)) in
  let covkk := xdiv (XF (gw_var n W xk)) (XF (1 - sumW2)) in
  xdiv (covwt n xj xk W) (xsqrt (xmul covjj covkk)).

(** ** rank and findq; [sort_index] is arma::sort_index (ties in any order). *)
Section Sort.
Variable sort_index : list R -> list nat.
(** rank (h:97-102); linspace(0, n-1, n) is 0, 1, ..., n-1 *)
Definition rank (l : list R) : list R :=
  let res := map INR (sort_index l) in
  map (fun k => INR k + 1) (sort_index res).

(** cumsum *)
Fixpoint cumsum_from (a : R) (l : list R) : list R :=
  match l with [] => [] | x :: t => (a + x) :: cumsum_from (a + x) t end.
Definition cumsum (l : list R) : list R := cumsum_from 0 l.

(** First i with Cum(i) > k (34-39) *)
Fixpoint first_above (k : R) (cum : list R) : option nat :=
  match cum with
  | [] => None
  | c :: t => if Rltb k c then Some O else option_map S (first_above k t)
  end.
(** xo[cond] (33, 36, 40-44): "cond = i - 1" wraps round for i = 0 and "cond < 0" is never true for
    an unsigned number, so xo[cond] is then out of range; operator[] is not checked. *)
Definition quantile_at (xo cum : list R) (k : R) : outcome R :=
  let read i := match nth_error xo i with Some v => Ok v | None => UB end in
  match first_above k cum with
  | None => match length cum with O => UB | S m => read m end
  | Some O => UB
  | Some (S i) => read i
  end.
(** findq (24-49) *)
Definition findq (n : nat) (x w : nat -> R) : outcome (R * R * R) :=
  let xs := column n x in
  let xo := rsort xs in
  let wo := map w (sort_index xs) in
  let cum := cumsum wo in
  let* q1 := quantile_at xo cum (1 / 4) in
  let* q2 := quantile_at xo cum (2 / 4) in
  let* q3 := quantile_at xo cum (3 / 4) in
  Ok (q1, q2, q3).
(** mLocalMedian, mIQR, mQI at one location and variable (119-123) *)
Definition quartile_stats (n : nat) (x W : nat -> R) : outcome (R * R * xd) :=
  let* q := findq n x W in
  let '(q1, q2, q3) := q in
  Ok (q2, q3 - q1, xdiv (XF (2 * q2 - q3 - q1)) (XF (q3 - q1))).
(** mSCorrmat(i, tag): corwt of the columns of rankX (141, 161) *)
Definition spearman (n : nat) (xj xk W : nat -> R) : xd :=
  corwt n (fun i => nth i (rank (column n xj)) 0) (fun i => nth i (rank (column n xk)) 0) W.
End Sort.

(** ** Columns of the correlation matrices *)
(** nCol of run (76) *)
Definition corr_cols (first_only : bool) (nVar : nat) : nat :=
  if first_only then nVar - 1 else (nVar + 1) * nVar / 2 - nVar.
(** Visiting order of the loops over j and k (149-153) *)
Definition corr_pairs (first_only : bool) (nVar : nat) : list (nat * nat) :=
  flat_map (fun j => map (fun k => (j, k)) (seq (j + 1) (nVar - (j + 1))))
           (seq 0 (if first_only then 1 else nVar - 1)).
(** One row of mCovmat, mCorrmat or mSCorrmat: entry number "tag" gets the value of the pair
    visited at that time; operator() checks the column.  [f j k] is the value. *)
Definition store (row : list xd) (tag : nat) (v : xd) : outcome (list xd) :=
  if (tag <? length row)%nat then Ok (firstn tag row ++ v :: skipn (S tag) row) else Throw.
Fixpoint fill_row (f : nat -> nat -> xd) (pairs : list (nat * nat)) (tag : nat) (row : list xd) : outcome (list xd) :=
  match pairs with
  | [] => Ok row
  | (j, k) :: t => let* row' := store row tag (f j k) in fill_row f t (S tag) row'
  end.
(** GWCorrelationSerial, one location and one of the three matrices; throws with fewer than
    two variables (170). *)
Definition corr_row (first_only : bool) (nVar : nat) (f : nat -> nat -> xd) : outcome (list xd) :=
  if (2 <=? nVar)%nat
  then fill_row f (corr_pairs first_only nVar) 0 (repeat (XF 0) (corr_cols first_only nVar))
  else Throw.
