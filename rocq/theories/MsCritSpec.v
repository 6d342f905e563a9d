(** Vocabulary of C131-C133. *)
From Coq Require Import Reals Arith.
From Verif Require Import Sums.
Local Open Scope R_scope.

(** What is returned by the inverse is an inverse. *)
Definition inverts (inv1 : R -> option R) : Prop := forall a b, inv1 a = Some b -> b * a = 1.

(** Sum over all observations but i. *)
Definition sum_without (n i : nat) (f : nat -> R) : R := bigsum n (fun j => if Nat.eqb j i then 0 else f j).

(** Slope of the regression through the origin of y on x at location i, without observation i. *)
Definition loo_slope (n : nat) (x y : nat -> R) (w : nat -> nat -> R) (i : nat) : R :=
  sum_without n i (fun j => w i j * x j * y j) / sum_without n i (fun j => w i j * x j ^ 2).
(** ... and with it. *)
Definition slope (n : nat) (x y : nat -> R) (w : nat -> nat -> R) (i : nat) : R :=
  bigsum n (fun j => w i j * x j * y j) / bigsum n (fun j => w i j * x j ^ 2).

(** Residual sum of squares when location i has the coefficient b i. *)
Definition rss (n : nat) (x y b : nat -> R) : R := bigsum n (fun i => (y i - x i * b i) ^ 2).

(** Trace of the hat matrix of the regressions with slope [slope]. *)
Definition hat_trace (n : nat) (x : nat -> R) (w : nat -> nat -> R) : R :=
  bigsum n (fun i => w i i * x i ^ 2 / bigsum n (fun j => w i j * x j ^ 2)).
