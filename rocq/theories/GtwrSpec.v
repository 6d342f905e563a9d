(** Vocabulary for the theorems about GTWR. *)
From Coq Require Import Reals List.
From Verif Require Import Outcome XReal DistModel DistSpec GtwrModel.
Import ListNotations.
Local Open Scope R_scope.

(** [g] increases strictly on [0, mx] and decreases strictly on [mx, 1]. *)
Definition unimodal (g : R -> R) (mx : R) : Prop :=
  (forall x y, 0 <= x -> x < y -> y <= mx -> g x < g y) /\
  (forall x y, mx <= x -> x < y -> y <= 1 -> g y < g x).

(** Golden ratio conjugate. *)
Definition phi : R := (sqrt 5 - 1) / 2.

(** Calibration at [locs] of a model over the data [cs] at times [ts]: distances are measured
    from [locs], every location taken at the time of the observation with its number. *)
Definition calibrated {B : Type} (weight : list xd -> list xd) (regress : list xd -> outcome B)
    (lambda : R) (cs : list point) (ts : list R) (locs : list point) (i : nat) (o : outcome B) : Prop :=
  exists v, st_distance (spacetime lambda locs cs ts ts) i = Ok v /\ o = regress (weight v).
