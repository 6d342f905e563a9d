(** Model of the bandwidth weighting functions. *)
From Coq Require Import Reals Bool List ZArith.
From Verif Require Import Outcome XReal.
Import ListNotations.
Local Open Scope R_scope.

(** include/gwmodelpp/spatialweight/BandwidthWeight.h:46-53
    enum KernelFunctionType; the dispatch table Kernel[] in
    src/gwmodelpp/spatialweight/BandwidthWeight.cpp:26-33 lists the functions in
    the same order, so the indexing [Kernel + mKernel] is a match. *)
Inductive kernel : Type := Gaussian | Exponential | Bisquare | Tricube | Boxcar.

(** BandwidthWeight.h:68-71, one component of the vector expression
    exp((dist % dist) / ((-2.0) * (bw * bw))). *)
Definition k_gaussian (d bw : xd) : xd :=
  xexp (xdiv (xmul d d) (xmul (XF (-2)) (xmul bw bw))).

(** BandwidthWeight.h:80-83, exp(-dist / bw). *)
Definition k_exponential (d bw : xd) : xd := xexp (xdiv (xopp d) bw).

(** BandwidthWeight.h:92-96. *)
Definition k_bisquare (d bw : xd) : xd :=
  let q := xsub (XF 1) (xdiv (xmul d d) (xmul bw bw)) in
  xmul (xofbool (xltb d bw)) (xmul q q).

(** BandwidthWeight.h:105-109. *)
Definition k_tricube (d bw : xd) : xd :=
  let q := xsub (XF 1) (xdiv (xmul (xmul d d) d) (xmul (xmul bw bw) bw)) in
  xmul (xofbool (xltb d bw)) (xmul (xmul q q) q).

(** BandwidthWeight.h:118-121. *)
Definition k_boxcar (d bw : xd) : xd := xmul (xofbool (xltb d bw)) (XF 1).

(** BandwidthWeight.cpp:26-33 (dispatch table). *)
Definition kernel_fn (k : kernel) : xd -> xd -> xd :=
  match k with
  | Gaussian => k_gaussian
  | Exponential => k_exponential
  | Bisquare => k_bisquare
  | Tricube => k_tricube
  | Boxcar => k_boxcar
  end.

(** arma::sort(vec) as used in BandwidthWeight.cpp:45: ascending; throws
    std::logic_error when the vector contains NaN.  Simplification: insertion
    sort instead of std::sort (the sorted value sequence is the same; -0 and +0
    compare equal). *)
Fixpoint xinsert (x : xd) (l : list xd) : list xd :=
  match l with
  | [] => [x]
  | y :: l' => if xleb x y then x :: l else y :: xinsert x l'
  end.
Fixpoint xisort (l : list xd) : list xd :=
  match l with
  | [] => []
  | x :: l' => xinsert x (xisort l')
  end.
Definition arma_sort (l : list xd) : outcome (list xd) :=
  if existsb xisnan l then Throw else Ok (xisort l).

(** arma::max(vec) as used in BandwidthWeight.cpp:52: throws on an empty
    vector; scans with [>] starting from -inf (op_max.hpp: direct_max). *)
Definition arma_max (l : list xd) : outcome xd :=
  match l with
  | [] => Throw
  | _ => Ok (fold_left (fun m x => if xltb m x then x else m) l (XI true))
  end.

(** Checked element access v(i) with a (signed) index converted to uword:
    negative values wrap to huge ones, so everything outside [0,n) throws. *)
Definition arma_at (l : list xd) (i : Z) : outcome xd :=
  if (i <? 0)%Z then Throw
  else match nth_error l (Z.to_nat i) with Some x => Ok x | None => Throw end.

(** floor on the bandwidth followed by int(b0), BandwidthWeight.cpp:46-47.
    Conversion of a non-finite double to int is undefined behaviour.
    Simplification: int is unbounded (differs only for n >= 2^31). *)
Definition floor_int (b : xd) : outcome Z :=
  match xval b with
  | Some r => Ok (Int_part r)
  | None => UB
  end.

(** The value fixbw of BandwidthWeight.cpp:42-53 (adaptive branch). *)
Definition adaptive_fixbw (b : xd) (dist : list xd) : outcome xd :=
  let nr := XF (INR (length dist)) in
  let dn := xdiv b nr in
  if xltb dn (XF 1) then
    let* vdist := arma_sort dist in
    let* b0 := floor_int b in
    let bx := xsub b (XF (IZR b0)) in
    let* d0 := arma_at vdist (b0 - 1) in
    let* d1 := arma_at vdist b0 in
    Ok (xadd d0 (xmul (xsub d1 d0) bx))
  else
    let* m := arma_max dist in
    Ok (xmul dn m).

(** BandwidthWeight::weight, BandwidthWeight.cpp:35-61.  The members mKernel,
    mAdaptive, mBandwidth are parameters. *)
Definition bw_weight (k : kernel) (adaptive : bool) (b : xd) (dist : list xd)
  : outcome (list xd) :=
  if adaptive then
    let* h := adaptive_fixbw b dist in
    Ok (map (fun d => kernel_fn k d h) dist)
  else Ok (map (fun d => kernel_fn k d b) dist).

(** ---- CUDA: src/gwmodelpp/spatialweight/cuda/BandwidthWeightKernel.cu ---- *)

(** gw_weight_gaussian_kernel / exponential, .cu:6-23: same expressions. *)
Definition cu_gaussian (d bw : xd) : xd :=
  xexp (xdiv (xmul d d) (xmul (XF (-2)) (xmul bw bw))).
Definition cu_exponential (d bw : xd) : xd := xexp (xdiv (xopp d) bw).

(** gw_weight_bisquare_kernel, .cu:26-33: [dist > bw ? 0 : ...]. *)
Definition cu_bisquare (d bw : xd) : xd :=
  if xltb bw d then XF 0
  else
    let q := xsub (XF 1) (xdiv (xmul d d) (xmul bw bw)) in xmul q q.

(** gw_weight_tricube_kernel, .cu:36-46. *)
Definition cu_tricube (d bw : xd) : xd :=
  if xltb bw d then XF 0
  else
    let q := xsub (XF 1) (xdiv (xmul (xmul d d) d) (xmul (xmul bw bw) bw)) in
    xmul (xmul q q) q.

(** gw_weight_boxcar_kernel, .cu:49-56. *)
Definition cu_boxcar (d bw : xd) : xd := if xltb bw d then XF 0 else XF 1.

(** GWRKernelCuda[5], .cu:70-76. *)
Definition cu_kernel_fn (k : kernel) : xd -> xd -> xd :=
  match k with
  | Gaussian => cu_gaussian
  | Exponential => cu_exponential
  | Bisquare => cu_bisquare
  | Tricube => cu_tricube
  | Boxcar => cu_boxcar
  end.

(** C++ (int)x truncates toward zero; UB for non-finite x. *)
Definition trunc_int (b : xd) : outcome Z :=
  match xval b with
  | Some r => Ok (if Rltb r 0 then (- Int_part (- r))%Z else Int_part r)
  | None => UB
  end.

(** Unchecked device access v_dists[i]. *)
Definition raw_at (l : list xd) (i : Z) : outcome xd :=
  if (i <? 0)%Z then UB
  else match nth_error l (Z.to_nat i) with Some x => Ok x | None => UB end.

(** gw_weight_cuda, .cu:79-118.  thrust::sort is modelled by [xisort] (its
    behaviour on NaN is not modelled); every index < ndp is written by exactly
    one thread because gridSize = ceil(ndp / threads) (see .cu:83). *)
Definition cu_weight (k : kernel) (adaptive : bool) (b : xd) (dist : list xd)
  : outcome (list xd) :=
  let is_dblmax := match b with XF r => Reqb r DBL_MAX | _ => false end in
  if is_dblmax then Ok (map (fun _ => XF 1) dist)
  else if adaptive then
    let ndp := XF (INR (length dist)) in
    let* i := trunc_int (if xltb b ndp then b else ndp) in
    let* h := raw_at (xisort dist) (i - 1) in
    Ok (map (fun d => cu_kernel_fn k d h) dist)
  else Ok (map (fun d => cu_kernel_fn k d b) dist).
