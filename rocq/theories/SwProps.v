(** Property theorems C19, C20: ownership in SpatialWeight.  Vocabulary: SwSpec.v. *)
From Coq Require Import Bool List Arith Lia.
From Verif Require Import SwModel SwSpec SwProofs.
Import ListNotations.

(** C19: after every history that ran without an exception and without undefined
    behaviour, owned components are live and have exactly one owner, and nothing
    is leaked; once all SpatialWeight objects are gone only components created by
    the caller remain.
    Missing from the full statement: histories may hit undefined behaviour; the
    next theorem says exactly when. *)
Theorem C19_ownership_partial : forall A (cln : A -> option A) l st,
  run A cln init l = SOk st ->
  well_owned st /\ ((forall o, ~ alive st o) -> forall p, live st p -> caller st p = true).
Proof. exact C19_main. Qed.
Print Assumptions C19_ownership_partial.

(** C19: after such a history the next operation is safe exactly in the
    circumstances listed in [fine]. *)
Theorem C19_safe_exactly_when : forall A (cln : A -> option A) l st x,
  run A cln init l = SOk st ->
  ((exists st', step A cln st x = SOk st') <-> fine cln st x).
Proof. exact C19_exact_main. Qed.
Print Assumptions C19_safe_exactly_when.
(** [c19_demo] exercises every operation. *)
Example C19_case : exists st, run nat Some init c19_demo = SOk st.
Proof. exact C19_case_main. Qed.

(** C19 is false for: copying a default-constructed (or moved-from) object, setting
    a member by reference to itself, and a clone that throws during an assignment. *)
Theorem C19_no_ub_refuted :
  run nat Some init [NewDefault; CopyCtor 0] = SUB /\
  run nat Some init [CallerNew 7; CallerNew 8; NewFrom (Some 0) (Some 1); MoveCtor 0; CopyCtor 0] = SUB /\
  run nat Some init [CallerNew 7; CallerNew 8; NewFrom (Some 0) (Some 1); SetRef 0 true 2] = SUB /\
  (exists cln st st', run nat cln init
     [CallerNew 1; CallerNew 0; NewFrom (Some 0) (Some 0); NewDefault; NewDefault; SetPtr 1 true (Some 0);
      SetPtr 1 false (Some 0); Mutate 1 false (fun _ => 0)] = SOk st /\
     step nat cln st (CopyAssign 0 1) = SThrow st' /\ step nat cln st' (Destroy 0) = SUB).
Proof. exact C19_refuted_main. Qed.
Print Assumptions C19_no_ub_refuted.

(** C19: a constructor whose second clone throws leaks the first clone. *)
Theorem C19_constructor_leak_refuted : exists cln st st' p,
  run nat cln init [CallerNew 1; CallerNew 0] = SOk st /\
  step nat cln st (NewFrom (Some 0) (Some 1)) = SThrow st' /\
  live st' p /\ caller st' p = false /\ forall o k, ~ owns st' o k p.
Proof. exact C19_leak_main. Qed.
Print Assumptions C19_constructor_leak_refuted.

(** C19: setWeight / setDistance by pointer do not take ownership (their
    documentation says they do): the argument stays alive and caller-owned. *)
Theorem C19_pointer_setter_does_not_take_ownership : forall A (cln : A -> option A) l st st' o k p,
  run A cln init l = SOk st -> caller st p = true -> step A cln st (SetPtr o k (Some p)) = SOk st' ->
  live st' p /\ caller st' p = true /\ forall o' k', ~ owns st' o' k' p.
Proof. exact C19_pointer_main. Qed.
Print Assumptions C19_pointer_setter_does_not_take_ownership.
Example C19_pointer_case : exists st st', run nat Some init [CallerNew 7; NewDefault] = SOk st /\
  caller st 0 = true /\ step nat Some st (SetPtr 0 true (Some 0)) = SOk st'.
Proof. exact C19_pointer_case_main. Qed.

(** C20: an object's components change only through operations on that object. *)
Theorem C20_independence : forall A (cln : A -> option A) l1 l2 st st' o k,
  run A cln init l1 = SOk st -> alive st o -> (forall x, In x l2 -> ~ touches o x) ->
  run A cln st l2 = SOk st' -> content st' o k = content st o k.
Proof. exact C20_frame_main. Qed.
Print Assumptions C20_independence.
Example C20_case : exists st st',
  run nat Some init [CallerNew 7; CallerNew 8; NewFrom (Some 0) (Some 1); CopyCtor 0] = SOk st /\ alive st 0 /\
  (forall x, In x [Mutate 1 true (fun _ => 9); CopyCtor 0; Destroy 1] -> ~ touches 0 x) /\
  run nat Some st [Mutate 1 true (fun _ => 9); CopyCtor 0; Destroy 1] = SOk st' /\ content st' 0 true = Some 7.
Proof. exact C20_case_main. Qed.

(** C20: copies (construction and assignment) hold clones of the source's
    components, and the source is unchanged. *)
Theorem C20_copy_equal : forall A (cln : A -> option A) l st st' src k,
  run A cln init l = SOk st -> step A cln st (CopyCtor src) = SOk st' ->
  exists a b, content st src k = Some a /\ cln a = Some b /\
    content st' (nexto st) k = Some b /\ content st' src k = Some a /\ nexto st <> src.
Proof. exact C20_copy_main. Qed.
Print Assumptions C20_copy_equal.
Theorem C20_assign_equal : forall A (cln : A -> option A) l st st' dst src k,
  run A cln init l = SOk st -> dst <> src -> step A cln st (CopyAssign dst src) = SOk st' ->
  exists a b, content st src k = Some a /\ cln a = Some b /\
    content st' dst k = Some b /\ content st' src k = Some a.
Proof. exact C20_assign_main. Qed.
Print Assumptions C20_assign_equal.

(** C20: what the other operations store: construction and setters clone their arguments, moves transfer both
    components and leave the source empty, a modification changes one component only. *)
Theorem C20_construct : forall A (cln : A -> option A) l st st' p q,
  run A cln init l = SOk st -> step A cln st (NewFrom (Some p) (Some q)) = SOk st' ->
  exists a b c d, heap st p = Some a /\ cln a = Some b /\ heap st q = Some c /\ cln c = Some d /\
    content st' (nexto st) true = Some b /\ content st' (nexto st) false = Some d.
Proof. exact C20_new_main. Qed.
Print Assumptions C20_construct.
Theorem C20_move : forall A (cln : A -> option A) l st st' src k,
  run A cln init l = SOk st -> step A cln st (MoveCtor src) = SOk st' ->
  content st' (nexto st) k = content st src k /\ content st' src k = None.
Proof. exact C20_move_main. Qed.
Print Assumptions C20_move.
Theorem C20_move_assign : forall A (cln : A -> option A) l st st' dst src k,
  run A cln init l = SOk st -> dst <> src -> step A cln st (MoveAssign dst src) = SOk st' ->
  content st' dst k = content st src k /\ content st' src k = None.
Proof. exact C20_move_assign_main. Qed.
Print Assumptions C20_move_assign.
Theorem C20_set_by_reference : forall A (cln : A -> option A) l st st' o k p,
  run A cln init l = SOk st -> step A cln st (SetRef o k p) = SOk st' ->
  exists a b, heap st p = Some a /\ cln a = Some b /\ content st' o k = Some b /\
    content st' o (negb k) = content st o (negb k).
Proof. exact C20_set_ref_main. Qed.
Print Assumptions C20_set_by_reference.
Theorem C20_set_by_pointer : forall A (cln : A -> option A) l st st' o k p,
  run A cln init l = SOk st -> step A cln st (SetPtr o k (Some p)) = SOk st' ->
  (owns st o k p /\ st' = st) \/
  exists a b, heap st p = Some a /\ cln a = Some b /\ content st' o k = Some b /\
    content st' o (negb k) = content st o (negb k).
Proof. exact C20_set_ptr_main. Qed.
Print Assumptions C20_set_by_pointer.
Theorem C20_modify : forall A (cln : A -> option A) l st st' o k f,
  run A cln init l = SOk st -> step A cln st (Mutate o k f) = SOk st' ->
  exists a, content st o k = Some a /\ content st' o k = Some (f a) /\ content st' o (negb k) = content st o (negb k).
Proof. exact C20_mutate_main. Qed.
Print Assumptions C20_modify.
Example C20_operations_case : exists st, run nat Some init [CallerNew 7; CallerNew 8; NewFrom (Some 0) (Some 1);
  MoveCtor 0; MoveAssign 0 1; SetRef 0 true 1; SetPtr 0 false (Some 0); Mutate 0 true S] = SOk st /\
  content st 0 true = Some 9 /\ content st 0 false = Some 7 /\ content st 1 true = None.
Proof. eexists. split; [vm_compute; reflexivity|]. vm_compute. auto. Qed.
