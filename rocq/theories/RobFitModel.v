(** Model of GWRRobust::fitSerial (GWRRobust.cpp:129-167): the loop of basic GWR with
    weights multiplied by the mask ("mSpatialWeight.weightVector(i) % mWeightMask", 140).
    Rows of S stored, C not. *)
From mathcomp Require Import all_ssreflect all_algebra.
From Verif Require Import Outcome GwrModel.
Set Implicit Arguments. Unset Strict Implicit. Unset Printing Implicit Defensive.
Import GRing.Theory.
Local Open Scope ring_scope.

Definition robust_fit (F : realFieldType) (n p : nat) (inv : 'M[F]_p -> option 'M[F]_p)
    (x : 'M[F]_(n, p)) (y : 'cV[F]_n) (W : 'I_n -> 'cV[F]_n) (mask : 'cV[F]_n) (stop : 'I_n -> bool)
  : outcome (fitted_model F n p * bool) :=
  fit_core inv true false 0 n x y (fun i => \col_j (W i j ord0 * mask j ord0)) stop.
