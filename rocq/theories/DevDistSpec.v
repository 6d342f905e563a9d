(** Vocabulary of the theorems on distances computed on the device. *)
From Coq Require Import Reals Bool List Arith.
From Verif Require Import XReal DistModel DevDistModel.
Import ListNotations.
Local Open Scope R_scope.

(** The distance from o to p in the plane, or on the ellipsoid. *)
Definition between (geo : bool) (o p : point) : xd :=
  if geo then SpGcdist (fst p) (fst o) (snd p) (snd o) else XF (sqrt ((fst p - fst o) ^ 2 + (snd p - snd o) ^ 2)).
(** Calls after which nothing can be on the device. *)
Definition host_only (c : call) : Prop := match c with Prepare | Copy => False | _ => True end.
Definition not_copy (c : call) : Prop := match c with Copy => False | _ => True end.
Definition no_coordinates (c : call) : Prop := match c with MakeParameter _ => False | _ => True end.
