(** Local normal equations, and local regressions on one variable, computed from coordinates with rounding.
    RdistModel.v has the weights, RnormModel.v the cross products. *)
From Coq Require Import Reals List ZArith Arith Bool.
From Verif Require Import Outcome XReal KernelModel RoundModel RdistModel RgwssModel RnormModel.
Import ListNotations.
Local Open Scope R_scope.

Section Local.
Variables (rn : R -> R) (big : R) (fe : R -> R).
Variables (k : kernel) (adaptive : bool) (b : xd) (o : xd * xd) (ps : list (xd * xd)).

(** Element [j]; every sum below reads elements of vectors whose sizes have been compared. *)
Definition at_ (v : list xd) (j : nat) : xd := nth j v XN.
(** GWRBasic.cpp:299-300: "vec w = sw.weightVector(i); w(i) = 0.0;" in cross-validation ([leave] is the location), 261 and
    GWRMultiscale.cpp:506: the weights alone.  An element that does not exist is refused. *)
Definition r_weights_at (leave : option nat) : outcome (list xd) :=
  let* ws := r_weight_vector rn big fe k adaptive b o ps in
  match leave with
  | None => Ok ws
  | Some i => if Nat.ltb i (length ws) then Ok (firstn i ws ++ XF 0 :: skipn (S i) ws) else Throw
  end.
(** GWRBasic.cpp:301-303 (see RnormModel.v): an entry of "xtw * x" or of "xtw * y".  "%" and "*" compare sizes.  [t] is the order of the additions. *)
Definition r_local (leave : option nat) (t : order) (x y : list xd) : outcome xd :=
  let* ws := r_weights_at leave in
  if Nat.eqb (length x) (length ws) && Nat.eqb (length y) (length ws) then Ok (r_cross rn big t (at_ ws) (at_ x) (at_ y)) else Throw.
(** GWRMultiscale.cpp:506-511 (fitVarCoreSerial, one location; also 533-537): "xtwx_inv = inv_sympd(xtwx); betas.col(i) = xtwx_inv * xtwy".
    [inv1] is inv_sympd of a 1 x 1 matrix; it throws by answering [Throw]. *)
Definition r_slope (inv1 : xd -> outcome xd) (tx ty : order) (x y : list xd) : outcome xd :=
  let* s := r_local None tx x x in
  let* c := r_local None ty x y in
  let* i := inv1 s in Ok (rmul rn big i c).
End Local.
