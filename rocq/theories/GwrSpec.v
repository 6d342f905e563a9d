(** Vocabulary of C43-C52. *)
From mathcomp Require Import all_ssreflect all_algebra.
From Verif Require Import Outcome.
Set Implicit Arguments. Unset Strict Implicit. Unset Printing Implicit Defensive.
Import GRing.Theory.
Local Open Scope ring_scope.

Section S.
Variables (F : realFieldType) (n p : nat).
(** Weighted residual sum of squares of the coefficient vector b. *)
Definition wrss (x : 'M[F]_(n, p)) (y w : 'cV[F]_n) (b : 'cV[F]_p) : F :=
  \sum_j w j ord0 * (y j ord0 - (x *m b) j ord0) ^+ 2.

(** b minimises the weighted residual sum of squares, and nothing else does. *)
Definition only_minimiser (x : 'M[F]_(n, p)) (y w : 'cV[F]_n) (b : 'cV[F]_p) : Prop :=
  forall b', wrss x y w b <= wrss x y w b' /\ (wrss x y w b' = wrss x y w b -> b' = b).
End S.

(** The contract of the inverse: what it returns is a left inverse. *)
Definition inverse_contract (F : realFieldType) (p : nat) (inv : 'M[F]_p -> option 'M[F]_p) : Prop :=
  forall A B, inv A = Some B -> B *m A = 1%:M.

(** A concrete inverse, for the examples. *)
Definition exact_inv (F : realFieldType) (p : nat) (A : 'M[F]_p) : option 'M[F]_p :=
  if A \in unitmx then Some (invmx A) else None.
