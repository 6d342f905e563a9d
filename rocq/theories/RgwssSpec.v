(** Weighted mean and variance, and the data for which the rounded ones are accurate. *)
From Coq Require Import Reals List ZArith Permutation.
From Verif Require Import XReal Sums RoundSpec RgwssModel.
Local Open Scope R_scope.

(** The tree adds the terms 0 ... n-1, each once. *)
Definition adds (n : nat) (t : order) : Prop := Permutation (leaves t) (seq 0 n).
Definition mean_of (n : nat) (w x : nat -> R) : R := bigsum n (fun j => w j * x j) / bigsum n w.
Definition variance_of (n : nat) (w x : nat -> R) : R :=
  bigsum n (fun j => w j * (x j - mean_of n w x) ^ 2) / bigsum n w.
Definition reads (n : nat) (f : nat -> xd) (v : nat -> R) : Prop := forall j, (j < n)%nat -> xval (f j) = Some (v j).
(** Weights of a kernel, at least one of them not tiny; at most 2^40 of them. *)
Definition kernel_weights (n : nat) (w : nat -> R) : Prop :=
  (forall j, (j < n)%nat -> 0 <= w j <= 1) /\ (exists j, (j < n)%nat /\ p2 (-400) <= w j) /\ INR n <= p2 40.
(** Numbers of magnitude at most M. *)
Definition within (M : R) (n : nat) (x : nat -> R) : Prop :=
  p2 (-400) <= M <= p2 400 /\ forall j, (j < n)%nat -> Rabs (x j) <= M.
