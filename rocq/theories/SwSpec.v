(** Specification vocabulary for C19 and C20. *)
From Coq Require Import Bool List Arith.
From Verif Require Import SwModel.
Import ListNotations.

Section Spec.
Variable A : Type.
Variable cln : A -> option A.

(** Object [o] is alive and its member [k] points to address [p]. *)
Definition owns (st : state A) (o : nat) (k : bool) (p : nat) : Prop :=
  exists s, objs st o = Some s /\ slot k s = Some p.
Definition alive (st : state A) (o : nat) : Prop := objs st o <> None.
Definition live (st : state A) (p : nat) : Prop := heap st p <> None.
Definition clonable (st : state A) (p : nat) : Prop :=
  exists a b, heap st p = Some a /\ cln a = Some b.

(** Heap discipline: owned addresses are live and have exactly one owner, every
    live address is owned or was created by the caller (no leak). *)
Definition well_owned (st : state A) : Prop :=
  (forall o k p, owns st o k p -> live st p /\ caller st p = false) /\
  (forall o1 k1 o2 k2 p, owns st o1 k1 p -> owns st o2 k2 p -> o1 = o2 /\ k1 = k2) /\
  (forall p, live st p -> caller st p = true \/ exists o k, owns st o k p).

(** The exact circumstances in which an operation is safe. *)
Definition fine (st : state A) (x : op A) : Prop :=
  match x with
  | CallerNew _ | NewDefault => True
  | CallerDelete p => caller st p = true
  | NewFrom pw pd => exists p q, pw = Some p /\ pd = Some q /\ clonable st p /\ clonable st q
  | CopyCtor o => exists p q, owns st o true p /\ owns st o false q /\ clonable st p /\ clonable st q
  | MoveCtor o | Destroy o => alive st o
  | CopyAssign dst src => alive st dst /\ alive st src /\
      (dst = src \/ exists p q, owns st src true p /\ owns st src false q /\ clonable st p /\ clonable st q)
  | MoveAssign dst src => alive st dst /\ alive st src
  | SetPtr o k p => alive st o /\
      (p = None \/ exists a, p = Some a /\ (owns st o k a \/ clonable st a))
  | SetRef o k p => alive st o /\ clonable st p /\ ~ owns st o k p
  | Mutate o k _ => exists p, owns st o k p
  | Use o => exists p q, owns st o true p /\ owns st o false q
  end.

(** The operation may change what object [o] holds. *)
Definition touches (o : nat) (x : op A) : Prop :=
  match x with
  | MoveCtor q | Destroy q => q = o
  | CopyAssign dst _ => dst = o
  | MoveAssign dst src => dst = o \/ src = o
  | SetPtr q _ _ | SetRef q _ _ | Mutate q _ _ => q = o
  | _ => False
  end.
End Spec.
Arguments owns {A}. Arguments alive {A}. Arguments live {A}. Arguments clonable {A}.
Arguments well_owned {A}. Arguments fine {A}. Arguments touches {A}.
