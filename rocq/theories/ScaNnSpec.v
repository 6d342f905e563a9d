(** What the neighbours of a location are; independent of the model. *)
From Coq Require Import Reals List.
Import ListNotations.
Local Open Scope R_scope.

(** [idx] are k different observations nearest to a location with distances [d] to the observations, in order of distance,
    and [ds] their distances. *)
Definition nearest_to (d : list R) (k : nat) (idx : list nat) (ds : list R) : Prop :=
  length idx = k /\ NoDup idx /\ (forall j, In j idx -> (j < length d)%nat) /\
  ds = map (fun j => nth j d 0) idx /\
  (forall a b, (a <= b < k)%nat -> nth a ds 0 <= nth b ds 0) /\
  forall j j', In j idx -> (j' < length d)%nat -> ~ In j' idx -> nth j d 0 <= nth j' d 0.
