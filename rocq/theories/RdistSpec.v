(** Specification vocabulary for rounded distances. *)
From Coq Require Import Reals List ZArith.
From Verif Require Import XReal RoundSpec.
Local Open Scope R_scope.

(** The doubles [x] have the finite values [p]. *)
Definition at_point (x : xd * xd) (p : R * R) : Prop := xval (fst x) = Some (fst p) /\ xval (snd x) = Some (snd p).
(** The planar distance. *)
Definition planar (o p : R * R) : R := sqrt ((fst p - fst o) ^ 2 + (snd p - snd o) ^ 2).
(** Coordinates of magnitude at most 2^400; two points whose coordinates are equal or differ by at least 2^-400. *)
Definition placed (p : R * R) : Prop := Rabs (fst p) <= p2 400 /\ Rabs (snd p) <= p2 400.
Definition separated (o p : R * R) : Prop :=
  (fst p = fst o \/ p2 (-400) <= Rabs (fst p - fst o)) /\ (snd p = snd o \/ p2 (-400) <= Rabs (snd p - snd o)).
(** A rounding that does not depend on the sign. *)
Definition odd (rn : R -> R) : Prop := forall x, rn (- x) = - rn x.
(** A double. *)
Definition is_double (x : R) : Prop := binary64 x = x.
