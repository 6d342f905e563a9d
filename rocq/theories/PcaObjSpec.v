(** Vocabulary of C169. *)
From Coq Require Import Reals Bool List Arith ZArith.
From Verif Require Import XReal Sums PcaObjModel.
Import ListNotations.
Local Open Scope R_scope.

Definition entry {A : Type} (m : list (list A)) (i j : nat) : option A := match nth_error m i with Some r => nth_error r j | None => None end.
Definition has (m : list (list xd)) (i j : nat) (r : R) : Prop := exists v, entry m i j = Some v /\ xval v = Some r.
Definition shape {A : Type} (m : list (list A)) (r c : nat) : Prop := length m = r /\ Forall (fun row => length row = c) m.
(** Element of a cube: slice j, location i, variable v. *)
Definition loading (l : list (list (list R))) (j i v : nat) : option R := match nth_error l j with Some m => entry m i v | None => None end.

(** Locations reached before a request to stop. *)
Definition reached (stop : nat -> bool) (i : nat) : Prop := forall j, (j <= i)%nat -> stop j = false.
(** The last location reached. *)
Definition last_reached (n : nat) (stop : nat -> bool) (i : nat) : Prop :=
  (i < n)%nat /\ reached stop i /\ forall j, (i < j < n)%nat -> ~ reached stop j.

(** A complete decomposition: one singular value and one unit vector per variable. *)
Definition complete (c : nat) (d : list R) (V : list (list R)) : Prop :=
  length d = c /\ Forall (fun v => 0 <= v) d /\ length V = c /\ Forall (fun v => length v = c) V.
Definition squares (d : list R) : R := fold_right Rplus 0 (map (fun v => v * v) d).
(** The settings of two objects agree. *)
Definition like {table : Type} (o o' : obj table) : Prop :=
  o_x _ o' = o_x _ o /\ o_locs _ o' = o_locs _ o /\ o_weight _ o' = o_weight _ o /\ o_k _ o' = o_k _ o.
