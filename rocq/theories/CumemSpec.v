(** Vocabulary for the theorems about the ownership of device memory. *)
From Coq Require Import Reals Bool List Arith.
From Verif Require Import Outcome CumemModel.
Import ListNotations.
Local Open Scope R_scope.

(** Object [i] exists and is [o]. *)
Definition alive (s : state) (i : nat) (o : obj) : Prop := nth_error (objs s) i = Some (Some o).
(** It has memory of its own. *)
Definition owner (s : state) (i : nat) : Prop := exists o, alive s i o /\ m_own o = true.
Definition shape (s : state) (i r c : nat) : Prop := exists o, alive s i o /\ m_rows o = r /\ m_cols o = c.
(** Allocation [a] has not been freed. *)
Definition allocated (s : state) (a : nat) : Prop := exists v, nth_error (heap s) a = Some (Some v).
(** Object [i] holds the values [v]. *)
Definition contents (s : state) (i : nat) (v : cells) : Prop :=
  exists o a, alive s i o /\ m_ptr o = Some a /\ nth_error (heap s) a = Some (Some v) /\ length v = (m_rows o * m_cols o)%nat.

(** The uses that are safe. *)
Definition safe (s : state) (o : op) : Prop :=
  match o with
  | Default | Zero _ _ => True
  | Fill r c v => length v = (r * c)%nat
  | CopyC j | MoveC j => owner s j
  | ViewC j => exists x, alive s j x
  | Assign i j => i <> j /\ owner s i /\ owner s j /\ exists r c, shape s i r c /\ shape s j r c
  | MoveAssign i j => i <> j /\ (exists x, alive s i x /\ m_own x = false) /\ owner s j
  | TransAssign i j => i <> j /\ owner s i /\ owner s j /\ exists r c, shape s j (S r) c
  | Destroy i => exists x, alive s i x
  end.

(** States that can be reached by safe uses only. *)
Inductive reach : state -> Prop :=
| reach_empty : reach empty
| reach_step s o s' : reach s -> safe s o -> step s o = Ok s' -> reach s'.

(** Objects an operation replaces or empties. *)
Definition touched (o : op) (k : nat) : Prop :=
  match o with
  | MoveC j => k = j
  | Assign i _ | TransAssign i _ | Destroy i => k = i
  | MoveAssign i j => k = i \/ k = j
  | _ => False
  end.
(** What an operation should do, in terms of values; the new object of a constructor has the next free number. *)
Definition effect (s : state) (o : op) (s' : state) : Prop :=
  let n := length (objs s) in
  match o with
  | Default => shape s' n 0 0
  | Zero r c => shape s' n r c /\ contents s' n (repeat (Some 0) (r * c))
  | Fill r c v => shape s' n r c /\ contents s' n (map Some v)
  | CopyC j | MoveC j | ViewC j => forall r c v, shape s j r c -> contents s j v -> shape s' n r c /\ contents s' n v
  | Assign i j | MoveAssign i j => forall r c v, shape s j r c -> contents s j v -> shape s' i r c /\ contents s' i v
  | TransAssign i j => forall r c v, shape s j r c -> contents s j v -> shape s' i c r /\
      exists w, contents s' i w /\ forall x y, (x < r)%nat -> (y < c)%nat -> nth_error w (y + x * c) = nth_error v (x + y * r)
  | Destroy i => nth_error (objs s') i = Some None
  end.
