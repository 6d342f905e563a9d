(** Vocabulary of the property of distributed selection (C165). *)
From Coq Require Import Reals Bool List Arith.
From Verif Require Import XReal Sums MpiModel MpiSelModel.
Import ListNotations.
Local Open Scope R_scope.

Section Spec.
Variable A : Type.
Variables w tags : nat.
Variable todo : nat -> list xd -> action A.
Variable value : list (list R) -> xd.

(** The criterion of one round: for every tag the vectors of all processes are added, in
    the order of the processes. *)
Definition round_value (fs : nat -> nat -> list R) : xd :=
  value (map (fun t => fold_left vadd (map (fun s => fs s t) (seq 1 (w - 1))) (fs 0%nat t))
             (seq 0 tags)).

(** The lists of criteria that arise when, round after round, all processes contribute. *)
Inductive rounds : list xd -> Prop :=
| r_none : rounds []
| r_next : forall hs fs, rounds hs -> (forall p, (p < w)%nat -> todo p hs = Share (fs p)) ->
    rounds (hs ++ [round_value fs]).

(** No process can move. *)
Definition at_rest (eager : bool) (c : config A) : Prop :=
  forall d, ~ step A w tags eager todo value c d.

(** Every process has returned answer [a] after the criteria [hs]. *)
Definition all_return (hs : list xd) (a : A) (c : config A) : Prop :=
  ms c = MDone hs a /\ forall s, (1 <= s < w)%nat -> ws c s = WDone hs a.

(** Process [p] has returned, or thrown. *)
Definition returned (c : config A) (p : nat) : Prop :=
  match p with
  | O => exists hs a, ms c = MDone hs a
  | _ => exists hs a, ws c p = WDone hs a
  end.
Definition threw (c : config A) (p : nat) : Prop :=
  match p with
  | O => exists hs, ms c = MThrew hs
  | _ => exists hs, ws c p = WThrew hs
  end.
(** Process [p] has done what it does after the criteria broadcast so far: it has returned
    its answer or thrown; if it has a part to share, it has done neither. *)
Definition settled (c : config A) (p : nat) : Prop :=
  match todo p (bc c) with
  | Answer a => match p with O => ms c = MDone (bc c) a | _ => ws c p = WDone (bc c) a end
  | Raise => match p with O => ms c = MThrew (bc c) | _ => ws c p = WThrew (bc c) end
  | Share _ => ~ returned c p /\ ~ threw c p
  end.
End Spec.
