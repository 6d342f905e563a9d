(** Model of robust GWR.
    Source: GWRRobust.cpp:30-105 (fit: the mask starts as ones, 81), 238-275
    (robustGWRCaliFirst), 277-313 (robustGWRCaliSecond), 337-360 (filtWeight).
    [fit m] is mfitFunction with mWeightMask = m: Throw when an inverse fails.  [resid] and
    [stud] are the residuals (250, 291, 304) and studentised residuals (256) of a fit.
    [stop k]: the status is no longer Success after the k-th fit (counted from 0).
    [zero]: the zero coefficients returned on cancellation. *)
From Coq Require Import Reals Bool List Arith.
From Verif Require Import Outcome XReal Sums GlmModel.
Import ListNotations.
Local Open Scope R_scope.

(** filtWeight (337-360); a NaN fails all three comparisons *)
Definition filt_one (r : xd) : xd :=
  if xleb r (XF 2) then XF 1
  else if xltb (XF 2) r && xltb r (XF 3) then
    let f := xsub r (XF 2) in
    xmul (xsub (XF 1) (xmul f f)) (xsub (XF 1) (xmul f f))
  else XF 0.
Definition filtWeight (residual : xvec) (mse : xd) : xvec :=
  fun i => filt_one (xabs (xdiv (residual i) (xsqrt mse))).
(** "sum((residual % residual)) / residual.size()" *)
Definition mean_square (n : nat) (residual : xvec) : xd :=
  xdiv (xsum n (fun i => xmul (residual i) (residual i))) (XF (INR n)).
(** Lines 262-272 *)
Definition outlier_mask (stud : xvec) : xvec :=
  fun i => if xltb (XF 3) (xabs (stud i)) then XF 0 else XF 1.

Section Rob.
Variable A : Type.
Variable n : nat.
Variable fit : xvec -> outcome A.
Variables (resid stud : A -> xvec).
Variable stop : nat -> bool.
Variable zero : A.

(** Result and the masks of the fits made, in order. *)
Definition ones_mask : xvec := fun _ => XF 1.
Definition cali_first : outcome (A * list xvec) :=
  let* b := fit ones_mask in
  if stop 0%nat then Ok (zero, [ones_mask])
  else
    let m := outlier_mask (stud b) in
    let* b' := fit m in
    Ok (if stop 1%nat then zero else b', [ones_mask; m]).

(** 296-309; [k] is maxiter - iter, [done] the masks so far, [m] the current mask.  On
    cancellation the coefficients of the cancelled fit are kept until 310 replaces them. *)
Definition delta : R := 1 / 100000.
Fixpoint second_loop (k : nat) (b : A) (m : xvec) (mse diff : xd) (made : list xvec) : outcome (A * list xvec) :=
  match k with
  | O => Ok (b, made)
  | S k' =>
      if xltb (XF delta) diff then
        let* b' := fit m in
        let made' := made ++ [m] in
        if stop (length made) then Ok (zero, made')
        else
          let mse' := mean_square n (resid b') in
          second_loop k' b' (filtWeight (resid b') mse') mse' (xdiv (xabs (xsub mse mse')) mse') made'
      else Ok (b, made)
  end.
Definition cali_second : outcome (A * list xvec) :=
  let* b := fit ones_mask in
  if stop 0%nat then Ok (b, [ones_mask])
  else
    let mse := mean_square n (resid b) in
    second_loop 20 b (filtWeight (resid b) mse) mse (XF 1) [ones_mask].
(** regressionHatmatrix (226-236) *)
Definition calibrate (filtered : bool) : outcome (A * list xvec) :=
  if filtered then cali_first else cali_second.
End Rob.
