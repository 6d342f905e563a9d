(** Model of the bandwidth weighting functions with rounding.
    Source: src/gwmodelpp/spatialweight/BandwidthWeight.cpp:35-61, include/gwmodelpp/spatialweight/BandwidthWeight.h:68-121;
    KernelModel.v has the same functions over exact numbers.
    [rn] is the rounding of the exact result of an operation to a double without a bound on its size; what is at least [big] in
    magnitude overflows to infinity.  [fe] is std::exp on finite arguments.  Comparisons, negation, floor and the sort are exact.
    Simplified: no fused multiply-add (the compiler does not use any unless told to). *)
From Coq Require Import Reals Bool List ZArith.
From Verif Require Import Outcome XReal KernelModel.
Import ListNotations.
Local Open Scope R_scope.

Section Round.
Variables (rn : R -> R) (big : R) (fe : R -> R).

Definition rd (x : xd) : xd :=
  match x with
  | XF r => if Rleb big (Rabs r) then XI (Rltb r 0) else xfin (Rltb r 0) (rn r)
  | _ => x
  end.
Definition radd (x y : xd) : xd := rd (xadd x y).
Definition rsub (x y : xd) : xd := rd (xsub x y).
Definition rmul (x y : xd) : xd := rd (xmul x y).
Definition rdiv (x y : xd) : xd := rd (xdiv x y).
Definition rexp (x : xd) : xd :=
  match x with
  | XF r => XF (fe r)
  | XNZ => XF (fe 0)
  | XI true => XF 0
  | XI false => XI false
  | XN => XN
  end.

(** BandwidthWeight.h:68-71 *)
Definition r_gaussian (d bw : xd) : xd := rexp (rdiv (rmul d d) (rmul (XF (-2)) (rmul bw bw))).
(** 80-83 *)
Definition r_exponential (d bw : xd) : xd := rexp (rdiv (xopp d) bw).
(** 92-96 *)
Definition r_bisquare (d bw : xd) : xd :=
  let q := rsub (XF 1) (rdiv (rmul d d) (rmul bw bw)) in rmul (xofbool (xltb d bw)) (rmul q q).
(** 105-109 *)
Definition r_tricube (d bw : xd) : xd :=
  let q := rsub (XF 1) (rdiv (rmul (rmul d d) d) (rmul (rmul bw bw) bw)) in
  rmul (xofbool (xltb d bw)) (rmul (rmul q q) q).
(** 118-121 *)
Definition r_boxcar (d bw : xd) : xd := rmul (xofbool (xltb d bw)) (XF 1).
Definition r_kernel (k : kernel) : xd -> xd -> xd :=
  match k with
  | Gaussian => r_gaussian
  | Exponential => r_exponential
  | Bisquare => r_bisquare
  | Tricube => r_tricube
  | Boxcar => r_boxcar
  end.

(** BandwidthWeight.cpp:42-53; the number of elements is converted to double. *)
Definition r_fixbw (b : xd) (dist : list xd) : outcome xd :=
  let dn := rdiv b (rd (XF (INR (length dist)))) in
  if xltb dn (XF 1) then
    let* vdist := arma_sort dist in
    let* b0 := floor_int b in
    let bx := rsub b (XF (IZR b0)) in
    let* d0 := arma_at vdist (b0 - 1) in
    let* d1 := arma_at vdist b0 in
    Ok (radd d0 (rmul (rsub d1 d0) bx))
  else
    let* m := arma_max dist in Ok (rmul dn m).
(** 35-61 *)
Definition r_weight (k : kernel) (adaptive : bool) (b : xd) (dist : list xd) : outcome (list xd) :=
  if adaptive then
    let* h := r_fixbw b dist in Ok (map (fun d => r_kernel k d h) dist)
  else Ok (map (fun d => r_kernel k d b) dist).
End Round.
