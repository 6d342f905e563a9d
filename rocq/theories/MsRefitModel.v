(** Model of a multiscale GWR object that is fitted more than once.
    Source: GWRMultiscale.cpp:78-291 (fit: mX is centred in place, 84-95; the bandwidths found are put into
    mSpatialWeights, 213-219 and 359; a converged one is marked Specified in mBandwidthInitilize, 349).
    [fit_object] is [ms_fit] of MsModel.v on the members, together with the members it leaves behind.
    The copies mX0, mY0 are only written, never read. *)
From mathcomp Require Import all_ssreflect all_algebra.
From Verif Require Import Outcome GwrModel MsModel.
Set Implicit Arguments. Unset Strict Implicit. Unset Printing Implicit Defensive.
Import GRing.Theory Num.Theory.
Local Open Scope ring_scope.

Section Object.
Variables (F : realFieldType) (n p : nat).
Record ms_object := Object {
  ob_x : 'M[F]_(n, p); ob_y : 'cV[F]_n; ob_init : 'I_p -> init_type; ob_bw : 'I_p -> F }.
Variables (inv1 : 'M[F]_1 -> option 'M[F]_1) (inv : 'M[F]_p -> option 'M[F]_p).
Definition fit_object (hat intercept : bool) (flags : 'I_p -> bool) (W0 : 'I_n -> 'cV[F]_n) select0
    wt select threshold retry stop_iter stop_var stop_sel stop_in ctype cthreshold root maxiter (ob : ms_object)
  : outcome (ms F n p * F * ms_object) :=
  match ms_fit inv1 inv hat intercept flags (ob_x ob) (ob_y ob) W0 (ob_init ob) (ob_bw ob) select0
          wt select threshold retry stop_iter stop_var stop_sel stop_in ctype cthreshold root maxiter with
  | Ok (st, r) => Ok (st, r, Object (centre intercept flags (ob_x ob)) (ob_y ob) (minit st) (mbw st))
  | Throw => Throw
  | UB => UB
  end.
(** setDependentVariable *)
Definition set_response (y : 'cV[F]_n) (ob : ms_object) : ms_object :=
  Object (ob_x ob) y (ob_init ob) (ob_bw ob).
End Object.
