(** Model of the criteria of GWDR that need coefficients and the trace of the hat matrix:
    GWDR.cpp:420-467 (bandwidthCriterionAICSerial), 523-602 (indepVarCriterionSerial).
    Conventions of GwdrFitModel.v.  [inv] is arma::inv_sympd, [ginv] is ".i()".  [aicc] is GWRBase::AICc
    (GWRBase.h), a function of the residual sum of squares and shat(0) (DiagModel.base_aicc); [None] is
    a value that is not finite.  [None] as a result is DBL_MAX.
    x is mX.cols(index2uvec(indepVars, mHasIntercept)) (VarModel.v); mSpatialWeights and the bandwidths
    have nDim elements.  Progress and log messages are not modelled. *)
From mathcomp Require Import all_ssreflect all_algebra.
From Verif Require Import Outcome GwrModel GwdrFitModel.
Set Implicit Arguments. Unset Strict Implicit. Unset Printing Implicit Defensive.
Import GRing.Theory.
Local Open Scope ring_scope.

Section Crit.
Variables (F : realFieldType) (n p : nat).
Variables (inv ginv : 'M[F]_p -> option 'M[F]_p).
Variable aicc : F -> F -> option F.

(** betas, trS and the flag "flag" / "success" *)
Definition crit_state : Type := ('M[F]_(p, n) * F * bool)%type.

(** 430-460: a failed inverse clears the flag; later iterations ask the telegram and do nothing. *)
Definition aic_step (x : 'M[F]_(n, p)) (y : 'cV[F]_n) (Ws : seq ('I_n -> 'cV[F]_n)) (i : 'I_n)
    (st : crit_state) : outcome crit_state :=
  let: (b, tr, flag) := st in
  if flag then
    let w := dims_weight Ws i in
    let xtw := (\matrix_(j, a) (x j a * w j ord0))^T in
    let xtwy := x^T *m schur w y in
    match ginv (xtw *m x) with
    | Some xtwx_inv =>
        let ci := xtwx_inv *m xtw in
        let si := row i x *m ci in
        Ok (set_col b i (xtwx_inv *m xtwy), tr + si ord0 i, true)
    | None => Ok (b, tr, false)
    end
  else Ok st.

(** 462-476 and the status it leaves. *)
Definition gwdr_aic x y Ws stop (terminated : bool) : option F * bool :=
  match loop (aic_step x y Ws) stop (enum 'I_n) (0, 0, true) with
  | Ok (b, tr, flag, stopped) =>
      (if ~~ flag then None
       else if terminated || stopped then None else aicc (RSS x y b) tr, terminated || stopped)
  | _ => (None, terminated)
  end.

(** 531-538 *)
Definition is_global (optimise : bool) (bws : seq F) : bool :=
  if optimise then true else has (fun b => b == 0) bws.

(** 539-560: "betas.each_col() + beta" on the zero matrix; the telegram is not asked. *)
Definition global_core (x : 'M[F]_(n, p)) (y : 'cV[F]_n) : crit_state :=
  let xtwx := x^T *m x in
  let xtwy := x^T *m y in
  match inv xtwx with
  | Some xtwx_inv =>
      let beta := xtwx_inv *m xtwy in
      let ci := xtwx_inv *m x^T in
      (\matrix_(a, i) ((0 : 'M[F]_(p, n)) a i + beta a ord0),
       foldl (fun tr i => tr + (row i x *m ci) ord0 i) 0 (enum 'I_n), true)
  | None => (0, 0, false)
  end.

(** 562-592 *)
Definition local_step (x : 'M[F]_(n, p)) (y : 'cV[F]_n) (Ws : seq ('I_n -> 'cV[F]_n)) (i : 'I_n)
    (st : crit_state) : outcome crit_state :=
  let: (b, tr, success) := st in
  if success then
    let w := dims_weight Ws i in
    let xtw := (\matrix_(j, a) (x j a * w j ord0))^T in
    let xtwy := xtw *m y in
    match inv (xtw *m x) with
    | Some xtwx_inv =>
        let ci := xtwx_inv *m xtw in
        let si := row i x *m ci in
        Ok (set_col b i (xtwx_inv *m xtwy), tr + si ord0 i, true)
    | None => Ok (b, tr, false)
    end
  else Ok st.

(** 594-602 and the status it leaves *)
Definition ivar_finish x y (st : crit_state) (terminated : bool) : option F :=
  let: (b, tr, success) := st in
  if ~~ terminated && success then aicc (RSS x y b) tr else None.

Definition gwdr_ivar (optimise : bool) (bws : seq F) x y Ws stop (terminated : bool) : option F * bool :=
  if is_global optimise bws then (ivar_finish x y (global_core x y) terminated, terminated)
  else match loop (local_step x y Ws) stop (enum 'I_n) (0, 0, true) with
       | Ok (st, stopped) => (ivar_finish x y st (terminated || stopped), terminated || stopped)
       | _ => (None, terminated)
       end.
End Crit.
