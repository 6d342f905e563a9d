(** Proofs for C167 in the words of the statement. *)
From Coq Require Import Reals List Arith Lia Bool.
From Verif Require Import RaceModel RaceSpec RaceMain RaceTorn.
Import ListNotations.

Lemma stopped_told f stop i : stopped f stop i = told f stop i.
Proof. destruct f; reflexivity. Qed.

Section Cases.
Variable f : loop.
Variable c : settings.
Variables lo hi : nat.
Variable thr : nat -> nat.
Variable stop fine : nat -> bool.
Notation told := (told f stop).
Notation acc := (accesses f c lo thr stop fine).

Lemma out_told : shared_out lo hi thr told -> shared_out lo hi thr (stopped f stop).
Proof. intros (i & j & H). exists i, j. now rewrite !stopped_told. Qed.
Lemma free_case evs : f <> Ridge_cv -> f <> Ridge_fit -> execution lo hi thr evs ->
  (forall i, (lo <= i < hi)%nat -> told i = false -> fine i = true) ->
  (forall i j, (lo <= i < hi)%nat -> (lo <= j < hi)%nat -> told i = true -> told j = true -> thr i = thr j) ->
  rows_kept f c -> slices_kept f c -> ~ race lo hi thr (acc evs).
Proof.
  intros N1 N2 EX F ST. apply C167_free_main; auto.
  - intros i I. rewrite stopped_told. auto.
  - intros i j I J. rewrite !stopped_told. auto.
Qed.
Lemma unstored_case evs : execution lo hi thr evs -> (forall i, (lo <= i < hi)%nat -> told i = false -> fine i = true) ->
  shared_out lo hi thr told -> (~ rows_kept f c \/ ~ slices_kept f c) -> race lo hi thr (acc evs).
Proof.
  intros EX F SO. apply C167_unstored_main; auto.
  - intros i I. rewrite stopped_told. auto.
  - now apply out_told.
Qed.
Lemma ridge_case evs : f = Ridge_cv \/ f = Ridge_fit -> execution lo hi thr evs -> (forall i, (lo <= i < hi)%nat -> told i = false -> fine i = true) ->
  shared_out lo hi thr told -> race lo hi thr (acc evs).
Proof.
  intros R EX F SO. apply (C167_ridge_main f c lo hi); auto.
  - intros i I. rewrite stopped_told. auto.
  - now apply out_told.
Qed.
Lemma failure_case evs : execution lo hi thr evs ->
  (gives_up f /\ shared_out lo hi thr told /\ (exists i, (lo <= i < hi)%nat /\ told i = false /\ fine i = false)) \/
  (goes_on f /\ exists i j, (lo <= i < hi)%nat /\ (lo <= j < hi)%nat /\ thr i <> thr j /\ told i = false /\ told j = false /\ fine i = false /\ fine j = false) ->
  race lo hi thr (acc evs).
Proof.
  intros EX [(G & SO & i & I & T & F)|(G & i & j & I & J & TH & Ti & Tj & Fi & Fj)].
  - apply (C167_failure_main f c lo hi thr stop fine evs i); auto; [now apply out_told|now rewrite stopped_told].
  - apply (C167_failures_main f c lo hi thr stop fine evs i j); auto; now rewrite stopped_told.
Qed.
Lemma cancel_case evs i j : (lo <= i < hi)%nat -> (lo <= j < hi)%nat -> thr i <> thr j -> told i = true -> told j = true -> race lo hi thr (acc evs).
Proof. intros. apply (C167_cancel_main f c lo hi thr stop fine evs i j); auto; now rewrite stopped_told. Qed.
End Cases.

(** Two iterations in two threads that overlap. *)
Lemma overlap : execution 0 2 (fun i => i) [Begin 0; Begin 1; End_ 0; End_ 1].
Proof.
  split; [|split; [|split; [|split]]].
  - repeat constructor; cbn; intuition discriminate.
  - cbn. intros i H. decompose [or] H; try contradiction; try discriminate; match goal with H : Begin _ = _ |- _ => injection H as <- end; lia.
  - cbn. intros i H. decompose [or] H; try contradiction; try discriminate; match goal with H : End_ _ = _ |- _ => injection H as <- end; lia.
  - intros i I. assert (i = 0 \/ i = 1)%nat as [->| ->] by lia.
    + exists [], [Begin 1], [End_ 1]. reflexivity.
    + exists [Begin 0], [End_ 0], []. reflexivity.
  - intros i j I J T. lia.
Qed.
Lemma both_work f : shared_out 0 2 (fun i => i) (told f (fun _ => false)).
Proof. exists 0%nat, 1%nat. destruct f; cbn; repeat split; lia. Qed.
