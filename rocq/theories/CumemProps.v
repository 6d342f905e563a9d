(** C144: ownership of device memory. *)
From Coq Require Import Reals Bool List Arith Lia.
From Verif Require Import Outcome CumemModel CumemSpec CumemProofs.
Import ListNotations.
Local Open Scope R_scope.

(** In every state reached by safe uses, every further safe use succeeds (no double free, no access outside live memory), has
    the intended effect on the values, and leaves the values of every other object with memory of its own as they were. *)
Theorem C144_step_partial : forall s o, reach s -> safe s o -> exists s', step s o = Ok s' /\ effect s o s' /\
  forall k, owner s k -> ~ touched o k -> owner s' k /\ forall v, contents s k v -> contents s' k v.
Proof. exact reach_next. Qed.
Print Assumptions C144_step_partial.
(** In such a state every owner has live memory of the right size, no two share it, and all live memory has an owner ... *)
Theorem C144_memory_partial : forall s, reach s ->
  (forall i o, alive s i o -> m_own o = true -> exists v, contents s i v) /\
  (forall i j o p a, alive s i o -> alive s j p -> m_own o = true -> m_own p = true -> m_ptr o = Some a -> m_ptr p = Some a -> i = j) /\
  (forall a, allocated s a -> exists i o, alive s i o /\ m_own o = true /\ m_ptr o = Some a).
Proof. exact reach_memory. Qed.
Print Assumptions C144_memory_partial.
(** ... so nothing is left once all objects are destroyed. *)
Theorem C144_no_leak_partial : forall s, reach s -> (forall i o, ~ alive s i o) -> forall a, ~ allocated s a.
Proof. exact reach_no_leak. Qed.
Print Assumptions C144_no_leak_partial.
(** Construction, copies, a transpose, a move, and destruction of everything. *)
Ltac next R o :=
  match type of R with
  | reach ?s => let x := eval cbn in (step s o) in
                match x with Ok ?q => let R' := fresh in
                  assert (R' : reach q); [apply (reach_step s o q R); [cbn|reflexivity]|clear R; rename R' into R] end
  end.
Example C144_case : exists s, run empty [Fill 1 2 [1; 2]; CopyC 0; TransAssign 1 0; MoveC 1; Destroy 0; Destroy 1; Destroy 2] = Ok s /\ reach s.
Proof.
  eexists. split; [cbn; reflexivity|]. assert (R := reach_empty).
  next R (Fill 1 2 [1; 2]); [reflexivity|].
  next R (CopyC 0); [eexists; split; reflexivity|].
  next R (TransAssign 1 0); [split; [lia|]; split; [eexists; split; reflexivity|]; split; [eexists; split; reflexivity|];
    exists 0%nat, 2%nat; eexists; split; [reflexivity|auto]|].
  next R (MoveC 1); [eexists; split; reflexivity|].
  next R (Destroy 0); [eexists; reflexivity|].
  next R (Destroy 1); [eexists; reflexivity|].
  next R (Destroy 2); [eexists; reflexivity|].
  exact R.
Qed.

(** Moving into an object that has memory of its own loses that memory for ever. *)
Theorem C144_move_assign_refuted : exists s, run empty [Zero 1 1; Zero 1 1; MoveAssign 0 1; Destroy 0; Destroy 1] = Ok s /\
  (forall i o, ~ alive s i o) /\ allocated s 0.
Proof.
  eexists. split; [cbn; reflexivity|]. split; [|eexists; cbn; reflexivity].
  intros i o H. destruct i as [|[|i]]; cbn in H; try discriminate. destruct i; discriminate.
Qed.
Print Assumptions C144_move_assign_refuted.
(** Copying into a default-constructed object copies nothing, and the memory allocated for it is never freed. *)
Theorem C144_assign_default_refuted : exists s s', run empty [Fill 1 1 [1]; Default; Assign 1 0] = Ok s /\ shape s 1 0 0 /\
  run s [Destroy 0; Destroy 1] = Ok s' /\ (forall i o, ~ alive s' i o) /\ allocated s' 1.
Proof.
  eexists. eexists. split; [cbn; reflexivity|]. split; [eexists; split; [cbn; reflexivity|auto]|]. split; [cbn; reflexivity|].
  split; [|eexists; cbn; reflexivity]. intros i o H. destruct i as [|[|i]]; cbn in H; try discriminate. destruct i; discriminate.
Qed.
Print Assumptions C144_assign_default_refuted.
(** Copying a smaller matrix reads beyond its end; copying a larger one keeps the old shape. *)
Theorem C144_assign_shape_refuted : run empty [Zero 2 2; Zero 1 1; Assign 0 1] = UB /\
  exists s, run empty [Zero 1 1; Zero 2 2; Assign 0 1] = Ok s /\ shape s 0 1 1.
Proof. split; [reflexivity|]. eexists. split; [cbn; reflexivity|]. eexists. split; [cbn; reflexivity|auto]. Qed.
Print Assumptions C144_assign_shape_refuted.
(** Assigning an object to itself destroys its values. *)
Theorem C144_assign_self_refuted : exists s, run empty [Fill 1 1 [1]; Assign 0 0] = Ok s /\ contents s 0 [None].
Proof. eexists. split; [cbn; reflexivity|]. eexists. eexists. split; [cbn; reflexivity|]. cbn. auto. Qed.
Print Assumptions C144_assign_self_refuted.
(** Moving a view takes ownership of memory that already has an owner: it is freed twice. *)
Theorem C144_move_view_refuted : run empty [Zero 1 1; ViewC 0; MoveC 1; Destroy 0; Destroy 2] = UB.
Proof. reflexivity. Qed.
Print Assumptions C144_move_view_refuted.
(** Every use of a destroyed object is undefined behaviour. *)
Theorem C144_destroyed_refuted : forall s i s', step s (Destroy i) = Ok s' ->
  (forall u, In u [CopyC i; MoveC i; ViewC i; Destroy i] -> step s' u = UB) /\
  (forall j, step s' (Assign i j) = UB /\ step s' (MoveAssign i j) = UB /\ step s' (TransAssign i j) = UB) /\
  (forall j, step s' (Assign j i) = UB /\ step s' (MoveAssign j i) = UB /\ step s' (TransAssign j i) = UB).
Proof. exact destroyed_main. Qed.
Print Assumptions C144_destroyed_refuted.
Example C144_destroyed_case : exists s, run empty [Zero 1 1; Destroy 0] = Ok s.
Proof. eexists. reflexivity. Qed.
(** A view does not keep its memory alive. *)
Theorem C144_dangling_view_refuted : run empty [Zero 1 1; ViewC 0; Destroy 0; CopyC 1] = UB.
Proof. reflexivity. Qed.
Print Assumptions C144_dangling_view_refuted.
(** Assigning a transpose frees memory even when it belongs to another object (here: after a move), and leaks when the
    object owned nothing. *)
Theorem C144_transpose_refuted : run empty [Zero 1 1; MoveC 0; Zero 1 1; TransAssign 0 2; Destroy 1] = UB /\
  exists s, run empty [Default; Zero 1 1; TransAssign 0 1; Destroy 0; Destroy 1] = Ok s /\ (forall i o, ~ alive s i o) /\ allocated s 1.
Proof.
  split; [reflexivity|]. eexists. split; [cbn; reflexivity|]. split; [|eexists; cbn; reflexivity].
  intros i o H. destruct i as [|[|i]]; cbn in H; try discriminate. destruct i; discriminate.
Qed.
Print Assumptions C144_transpose_refuted.
