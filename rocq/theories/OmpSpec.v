(** Vocabulary of C39-C40. *)
From Coq Require Import Reals List Arith.
From Verif Require Import Outcome Sums OmpModel.
Import ListNotations.

Definition begins (s : list event) : list nat :=
  flat_map (fun e => match e with Begin i => [i] | End_ _ _ => [] end) s.
Definition ends (s : list event) : list nat :=
  flat_map (fun e => match e with Begin _ => [] | End_ _ i => [i] end) s.

(** Every iteration of [lo, hi) begins once and ends once, after its beginning, on one of
    the threads.  Nothing else is required: any interleaving, any assignment. *)
Definition schedule (threads lo hi : nat) (s : list event) : Prop :=
  NoDup (begins s) /\ (forall i, In i (begins s) <-> lo <= i < hi) /\
  NoDup (ends s) /\ (forall i, In i (ends s) <-> lo <= i < hi) /\
  (forall pre t i post, s = pre ++ End_ t i :: post -> In i (begins pre) /\ t < threads).

(** Location i fails. *)
Definition fails {B : Type} (local : nat -> option (B * (nat -> R))) (i : nat) : Prop :=
  local i = None.

Definition some_fails {B : Type} (local : nat -> option (B * (nat -> R))) (lo hi : nat) : Prop :=
  exists i, lo <= i < hi /\ fails local i.

(** The caller learns of a failure: an exception or the criterion value DBL_MAX. *)
Definition reported {B : Type} (r : presult B) : Prop := r = Raised \/ r = Invalid.

(** One thread, iterations one after the other. *)
Fixpoint sequential (idx : list nat) : list event :=
  match idx with [] => [] | i :: t => Begin i :: End_ 0 i :: sequential t end.
