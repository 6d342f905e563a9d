(** Vocabulary of C173: the corners of a unit square, in order around it. *)
From Coq Require Import Reals.
Local Open Scope R_scope.
Definition corner_x (i : nat) : R := match i with 1%nat | 2%nat => 1 | _ => 0 end.
Definition corner_y (i : nat) : R := match i with 2%nat | 3%nat => 1 | _ => 0 end.
Definition corner_distance (i j : nat) : R := sqrt ((corner_x i - corner_x j) ^ 2 + (corner_y i - corner_y j) ^ 2).
