(** Histories of calls; independent of the model's steps. *)
From mathcomp Require Import all_ssreflect all_algebra.
From Verif Require Import GlmObjModel.
Set Implicit Arguments. Unset Strict Implicit. Unset Printing Implicit Defensive.

Section S.
Variables (F : realFieldType) (n : nat) (Bw : Type).
Implicit Types (c : call F n Bw) (cs : seq (call F n Bw)).
(** Neither predictions nor changes of the hat matrix setting. *)
Definition undisturbed cs : bool := all (fun c => match c with Predict _ _ _ | SetHat _ => false | _ => true end) cs.
(** Nothing, or calls ending with setHasHatMatrix(true). *)
Definition prepared cs : Prop := cs = [::] \/ exists t, cs = rcons t (SetHat true).
(** Calls after which the hat matrix is switched off: predict, or setHasHatMatrix(false). *)
Definition switches_off c : bool := match c with Predict _ _ _ => true | SetHat b => ~~ b | _ => false end.
(** The bandwidth asked for last. *)
Definition bandwidth_asked (b : Bw) cs : Bw := foldl (fun h c => if c is SetBandwidth b then b else h) b cs.
Definition never_auto cs : bool := all (fun c => if c is SetAuto b then ~~ b else true) cs.
(** Setters, and predictions that are not interrupted. *)
Definition quiet c : bool :=
  match c with
  | Fit _ _ => false
  | Predict _ s stop => [&& ~~ s.1, ~~ s.2 & [forall i, ~~ stop i]]
  | _ => true
  end.
(** A call that is interrupted neither between its stages nor in its loop. *)
Definition uninterrupted (stop : 'I_n -> bool) (s : bool * bool * bool) : Prop := s = (false, false, false) /\ forall i, stop i = false.
End S.
