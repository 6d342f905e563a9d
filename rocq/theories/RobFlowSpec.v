(** Histories of calls of a robust object, and what two runs have in common; independent of the model's steps. *)
From Coq Require Import Reals Bool List.
From Verif Require Import Outcome XReal KernelModel VarModel GlmModel FlowModel RobFlowModel.
Import ListNotations.
Set Implicit Arguments. Set Contextual Implicit.

(** The value given to setFiltered last, if any. *)
Definition filtered_last (C B : Type) (cs : list (call C B)) : option bool :=
  fold_left (fun f c => match c with SetFiltered b => Some b | _ => f end) cs None.
(** The same choice of columns and bandwidth, and the same lists of criteria. *)
Definition same_choice (C : Type) (o o' : object C) : Prop :=
  o_x o = o_x o' /\ o_weight o = o_weight o' /\ o_selected o = o_selected o' /\ o_vlist o = o_vlist o' /\ o_blist o = o_blist o'.
(** What the caller sees of a call. *)
Inductive seen (B : Type) := Saw (v : value B) | Exception | Anything.

Definition answer (C B : Type) (f : rfinished C B) : seen B :=
  match f with RReturned v _ => Saw v | RThrew _ => Exception | RUndefined => Anything end.
