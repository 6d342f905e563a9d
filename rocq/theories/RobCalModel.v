(** Robust calibration on the data: robustGWRCaliFirst and robustGWRCaliSecond with the masked regressions of RobFitModel.v.
    Source: GWRRobust.cpp:226-236 (regressionHatmatrix), 238-275, 277-313, 337-360 (filtWeight).
    Over exact scalars; [sq] is sqrt.  Runs that are not cancelled (cancellation: RobModel.v).  Where doubles give NaN or infinity
    the comparisons are resolved as doubles resolve them, as noted at each definition. *)
From mathcomp Require Import all_ssreflect all_algebra.
From Verif Require Import Outcome GwrModel RobFitModel.
Set Implicit Arguments. Unset Strict Implicit. Unset Printing Implicit Defensive.
Import GRing.Theory Num.Theory.
Local Open Scope ring_scope.

Section C.
Variables (F : realFieldType) (n p : nat) (inv : 'M[F]_p -> option 'M[F]_p) (sq : F -> F).

(** mfitFunction with mWeightMask = mask *)
Definition masked_fit (x : 'M[F]_(n, p)) y W mask : outcome (fitted_model F n p) :=
  match robust_fit inv x y W mask (fun _ => false) with Ok (s, _) => Ok s | Throw => Throw | UB => UB end.
(** 246-247, 290-291, 303-304 *)
Definition residual (x : 'M[F]_(n, p)) (y : 'cV[F]_n) (s : fitted_model F n p) : 'cV[F]_n := y - Fitted x (betas s).

(** "fabs(residual / sqrt(v)) > 3" (253, 260); v < 0: NaN, false; v = 0: infinite or, for a zero residual, NaN. *)
Definition outlier (r v : F) : bool :=
  if v < 0 then false else if v == 0 then r != 0 else 3%:R < `|r / sq v|.
(** 250-270; an EDF of zero makes sigmaHat infinite or NaN and the quotients 0 or NaN: no outliers. *)
Definition first_mask (x : 'M[F]_(n, p)) (y : 'cV[F]_n) (s : fitted_model F n p) : 'cV[F]_n :=
  let edf := n%:R - 2%:R * shat0 s + shat1 s in
  let sigma := RSS x y (betas s) / edf in
  \col_i (if (edf != 0) && outlier (residual x y s i ord0) (sigma * qdiag s i ord0) then 0 else 1).
(** 238-275: the last regression and the masks used, in order *)
Definition cali_first x y W : outcome (fitted_model F n p * seq 'cV[F]_n) :=
  match masked_fit x y W (const_mx 1) with
  | Ok s => let m := first_mask x y s in
            match masked_fit x y W m with Ok s' => Ok (s', [:: const_mx 1; m]) | Throw => Throw | UB => UB end
  | Throw => Throw | UB => UB
  end.

(** filtWeight (337-360); mse = 0: the quotients are infinite or NaN, weight 0 *)
Definition filt (mse r : F) : F :=
  if mse == 0 then 0 else
  let t := `|r / sq mse| in
  if t <= 2%:R then 1
  else if t < 3%:R then (1 - (t - 2%:R) * (t - 2%:R)) * (1 - (t - 2%:R) * (t - 2%:R))
  else 0.
Definition filt_mask (r : 'cV[F]_n) (mse : F) : 'cV[F]_n := \col_i filt mse (r i ord0).
(** 293, 305 *)
Definition mean_sq (r : 'cV[F]_n) : F := (\sum_i r i ord0 * r i ord0) / n%:R.
(** "abs(oldmse - mse) / mse > delta" (297, 307); mse = 0: infinite, or NaN when oldmse is 0 too *)
Definition goes_on (old mse : F) : bool :=
  if mse == 0 then old != 0 else 1 / (10 ^ 5)%:R < `|old - mse| / mse.
(** 296-309; [k] is maxiter - iter *)
Fixpoint second_loop (k : nat) x y W (s : fitted_model F n p) (m : 'cV[F]_n) (mse : F) (more : bool) (made : seq 'cV[F]_n)
  : outcome (fitted_model F n p * seq 'cV[F]_n) :=
  match k with
  | 0%N => Ok (s, made)
  | k'.+1 =>
      if more then
        match masked_fit x y W m with
        | Ok s' => let r := residual x y s' in let mse' := mean_sq r in
                   second_loop k' x y W s' (filt_mask r mse') mse' (goes_on mse mse') (rcons made m)
        | Throw => Throw | UB => UB
        end
      else Ok (s, made)
  end.
(** 277-313 *)
Definition cali_second x y W : outcome (fitted_model F n p * seq 'cV[F]_n) :=
  match masked_fit x y W (const_mx 1) with
  | Ok s => let r := residual x y s in
            second_loop 20 x y W s (filt_mask r (mean_sq r)) (mean_sq r) true [:: const_mx 1]
  | Throw => Throw | UB => UB
  end.
(** 226-236 *)
Definition calibration (filtered : bool) x y W := if filtered then cali_first x y W else cali_second x y W.
End C.
