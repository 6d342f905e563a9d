(** Local means, variances, standard deviations and skewness with rounding.
    Source: GWSS.cpp:111-113, 125-128 (GWAverageSerial); the same statements are at 146-150, 187-189, 201-203, 226-230.
    GwssModel.v has the same functions over exact numbers.  Every operation is rounded (RoundModel.v).
    Sums: arma::sum and the product of a row and a matrix (Armadillo or BLAS) may add their terms in any order, also in
    several partial sums: an order of summation is a binary tree with one leaf for each term.  An accumulator that
    starts at zero adds its first term exactly.
    Simplified: no fused multiply-add. *)
From Coq Require Import Reals List ZArith.
From Verif Require Import XReal RoundModel.
Import ListNotations.
Local Open Scope R_scope.

Inductive order := Leaf (j : nat) | Node (l r : order).
Fixpoint leaves (t : order) : list nat := match t with Leaf j => [j] | Node l r => leaves l ++ leaves r end.

Section Rounded.
Variables (rn : R -> R) (big : R).
Fixpoint osum (f : nat -> xd) (t : order) : xd :=
  match t with Leaf j => f j | Node l r => radd rn big (osum f l) (osum f r) end.

(** 111-112: "sumw = sum(w); Wi = w / sumw" *)
Definition r_share (t : order) (w : nat -> xd) (j : nat) : xd := rdiv rn big (w j) (osum w t).
(** 113: "trans(Wi) * mX", one column *)
Definition r_mean (t1 t2 : order) (w x : nat -> xd) : xd := osum (fun j => rmul rn big (r_share t1 w j) (x j)) t2.
(** 125-126: "centerized = mX.each_row() - mean; Wi.t() * (centerized % centerized)" *)
Definition r_variance (t1 t2 t3 : order) (w x : nat -> xd) : xd :=
  let c := fun j => rsub rn big (x j) (r_mean t1 t2 w x) in
  osum (fun j => rmul rn big (r_share t1 w j) (rmul rn big (c j) (c j))) t3.
(** 127: "sqrt(mLVar.row(i))" *)
Definition r_sd (t1 t2 t3 : order) (w x : nat -> xd) : xd := rd rn big (xsqrt (r_variance t1 t2 t3 w x)).
(** 128: "(Wi.t() * (centerized % centerized % centerized)) / (mLVar.row(i) % mStandardDev.row(i))" *)
Definition r_skewness (t1 t2 t3 t4 : order) (w x : nat -> xd) : xd :=
  let c := fun j => rsub rn big (x j) (r_mean t1 t2 w x) in
  rdiv rn big (osum (fun j => rmul rn big (r_share t1 w j) (rmul rn big (rmul rn big (c j) (c j)) (c j))) t4)
    (rmul rn big (r_variance t1 t2 t3 w x) (r_sd t1 t2 t3 w x)).
End Rounded.
