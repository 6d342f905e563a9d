(** Vocabulary of C158. *)
From Coq Require Import Reals Arith Bool List.
From Verif Require Import Sums MsCritSpec MsCudaModel.
Import ListNotations.
Local Open Scope R_scope.

(** Inverting one number on the device: fails exactly for zero. *)
Definition device_inverse (dinv : R -> option R) : Prop := dinv 0 = None /\ forall a, a <> 0 -> dinv a = Some (/ a).
(** Entries of a vector that is zero outside the locations from lo to hi - 1. *)
Definition only (lo hi : nat) (f : nat -> R) (k : nat) : R := if Nat.leb lo k && Nat.ltb k hi then f k else 0.
(** A row of the hat matrix of the regressions with coefficient [slope]. *)
Definition hat_row (n : nat) (x : nat -> R) (w : nat -> nat -> R) (i j : nat) : R :=
  x i * (w i j * x j) / bigsum n (fun k => w i k * x k ^ 2).
Definition hat_square (n : nat) (x : nat -> R) (w : nat -> nat -> R) (i : nat) : R := bigsum n (fun j => hat_row n x w i j ^ 2).
Definition sum_from (lo hi : nat) (f : nat -> R) : R := bigsum (hi - lo) (fun i => f (lo + i)%nat).
(** The denominators of the local coefficients, with and without the observation itself. *)
Definition squares (n : nat) (x : nat -> R) (w : nat -> nat -> R) (i : nat) : R := bigsum n (fun j => w i j * x j ^ 2).
Definition squares_without (n : nat) (x : nat -> R) (w : nat -> nat -> R) (i : nat) : R := sum_without n i (fun j => w i j * x j ^ 2).
(** How many calls are fits. *)
Fixpoint fits (l : list kernel_call) : nat := match l with [] => 0%nat | FitVar :: t => S (fits t) | _ :: t => fits t end.
