(** C167: data races of the OpenMP loops. *)
From Coq Require Import Reals List Arith Lia Bool.
From Verif Require Import RaceModel RaceSpec RaceMain RaceTorn RaceCases.
Import ListNotations.

(** Missing for the full claim: the cases refuted below. *)
Theorem C167_free_partial f c lo hi thr stop fine evs : f <> Ridge_cv -> f <> Ridge_fit -> execution lo hi thr evs ->
  (forall i, (lo <= i < hi)%nat -> told f stop i = false -> fine i = true) ->
  (forall i j, (lo <= i < hi)%nat -> (lo <= j < hi)%nat -> told f stop i = true -> told f stop j = true -> thr i = thr j) ->
  rows_kept f c -> slices_kept f c -> ~ race lo hi thr (accesses f c lo thr stop fine evs).
Proof. exact (free_case f c lo hi thr stop fine evs). Qed.
Print Assumptions C167_free_partial.
Example C167_free_case :
  ~ race 0 2 (fun i => i) (accesses Basic_fitCore (mkS false true true 100) 0 (fun i => i) (fun _ => false) (fun _ => true) [Begin 0; Begin 1; End_ 0; End_ 1]).
Proof.
  apply C167_free_partial; try discriminate; auto.
  - exact overlap.
  - right. split; [reflexivity|]. apply Nat.ltb_lt. reflexivity.
  - reflexivity.
Qed.

(** Rows of S or slices of mC that are not stored are all written to row 0 and slice 0. *)
Theorem C167_unstored_refuted f c lo hi thr stop fine evs : execution lo hi thr evs ->
  (forall i, (lo <= i < hi)%nat -> told f stop i = false -> fine i = true) ->
  shared_out lo hi thr (told f stop) -> (~ rows_kept f c \/ ~ slices_kept f c) -> race lo hi thr (accesses f c lo thr stop fine evs).
Proof. exact (unstored_case f c lo hi thr stop fine evs). Qed.
Print Assumptions C167_unstored_refuted.
(** The settings of a new GWRBasic: no slices are kept. *)
Example C167_unstored_case :
  race 0 2 (fun i => i) (accesses Basic_fitCore (mkS false false true 100) 0 (fun i => i) (fun _ => false) (fun _ => true) [Begin 0; Begin 1; End_ 0; End_ 1]).
Proof. apply C167_unstored_refuted; [exact overlap|auto|apply both_work|right; discriminate]. Qed.

(** mTrS += ... and current++ are executed by all threads. *)
Theorem C167_ridge_refuted f c lo hi thr stop fine evs : f = Ridge_cv \/ f = Ridge_fit -> execution lo hi thr evs ->
  (forall i, (lo <= i < hi)%nat -> told f stop i = false -> fine i = true) ->
  shared_out lo hi thr (told f stop) -> race lo hi thr (accesses f c lo thr stop fine evs).
Proof. exact (ridge_case f c lo hi thr stop fine evs). Qed.
Print Assumptions C167_ridge_refuted.
Example C167_ridge_case :
  race 0 2 (fun i => i) (accesses Ridge_fit (mkS false false true 100) 0 (fun i => i) (fun _ => false) (fun _ => true) [Begin 0; Begin 1; End_ 0; End_ 1]).
Proof. apply C167_ridge_refuted; [auto|exact overlap|auto|apply both_work]. Qed.

(** One failing location where the flag is read by others; two where it is not. *)
Theorem C167_failure_refuted f c lo hi thr stop fine evs : execution lo hi thr evs ->
  (gives_up f /\ shared_out lo hi thr (told f stop) /\
     (exists i, (lo <= i < hi)%nat /\ told f stop i = false /\ fine i = false)) \/
  (goes_on f /\ exists i j, (lo <= i < hi)%nat /\ (lo <= j < hi)%nat /\ thr i <> thr j /\
     told f stop i = false /\ told f stop j = false /\ fine i = false /\ fine j = false) ->
  race lo hi thr (accesses f c lo thr stop fine evs).
Proof. exact (failure_case f c lo hi thr stop fine evs). Qed.
Print Assumptions C167_failure_refuted.
Example C167_failure_case :
  race 0 2 (fun i => i) (accesses Gtwr_cv (mkS false false true 100) 0 (fun i => i) (fun _ => false) (fun i => Nat.eqb i 0) [Begin 0; Begin 1; End_ 0; End_ 1]).
Proof.
  apply C167_failure_refuted; [exact overlap|]. left. split; [cbn; tauto|]. split; [apply both_work|].
  exists 1%nat. repeat split; try lia; reflexivity.
Qed.

(** mStatus is written by every thread that sees a request to stop. *)
Theorem C167_cancel_refuted f c lo hi thr stop fine evs i j :
  (lo <= i < hi)%nat -> (lo <= j < hi)%nat -> thr i <> thr j -> told f stop i = true -> told f stop j = true ->
  race lo hi thr (accesses f c lo thr stop fine evs).
Proof. exact (cancel_case f c lo hi thr stop fine evs i j). Qed.
Print Assumptions C167_cancel_refuted.
Example C167_cancel_case :
  race 0 2 (fun i => i) (accesses Gwss_average (mkS false false true 100) 0 (fun i => i) (fun _ => true) (fun _ => true) [Begin 0; Begin 1; End_ 0; End_ 1]).
Proof. apply (C167_cancel_refuted _ _ _ _ _ _ _ _ 0 1); try lia; reflexivity. Qed.

(** What the row shared by all iterations holds afterwards. *)
Theorem C167_torn value lo hi p thr : (lo < hi)%nat ->
  (forall ws r j, writing lo hi p thr ws -> (j < p)%nat ->
     exists i, last_of_thread lo hi thr i /\ row_after value r ws j = value i j) /\
  (forall o, (forall j, (j < p)%nat -> last_of_thread lo hi thr (o j)) ->
     exists ws, writing lo hi p thr ws /\ forall r j, (j < p)%nat -> row_after value r ws j = value (o j) j).
Proof. exact (C167_torn_main value lo hi p thr). Qed.
Print Assumptions C167_torn.
Example C167_torn_case : exists ws, writing 0 3 2 (fun i => Nat.modulo i 2) ws /\
  forall r, row_after (fun i _ => INR i) r ws 0 = INR 2 /\ row_after (fun i _ => INR i) r ws 1 = INR 1.
Proof.
  destruct (proj2 (C167_torn (fun i _ => INR i) 0 3 2 (fun i => Nat.modulo i 2) ltac:(lia)) (fun j => 2 - j)%nat) as (ws & W & R).
  - intros j J. assert (j = 0 \/ j = 1)%nat as [->| ->] by lia.
    + split; [cbn; lia|]. intros k K. cbn in K. lia.
    + split; [cbn; lia|]. intros k K. cbn in K. assert (k = 2)%nat as -> by lia. cbn. lia.
  - exists ws. split; [exact W|]. intros r. rewrite !R by lia. split; reflexivity.
Qed.

(** It need not be any row of the hat matrix. *)
Theorem C167_no_row_refuted value lo hi p thr i i' : (lo <= i < hi)%nat -> (lo <= i' < hi)%nat -> thr i <> thr i' -> (2 <= p)%nat ->
  (forall a b j, (lo <= a < hi)%nat -> (lo <= b < hi)%nat -> (j < p)%nat -> value a j = value b j -> a = b) ->
  exists ws, writing lo hi p thr ws /\ forall r k, (lo <= k < hi)%nat -> exists j, (j < p)%nat /\ row_after value r ws j <> value k j.
Proof. exact (C167_no_row_main value lo hi p thr i i'). Qed.
Print Assumptions C167_no_row_refuted.
Example C167_no_row_case : exists ws, writing 0 2 2 (fun i => i) ws /\
  forall r k, (0 <= k < 2)%nat -> exists j, (j < 2)%nat /\ row_after (fun a _ => INR a) r ws j <> INR k.
Proof. apply (C167_no_row_refuted (fun a _ => INR a) 0 2 2 (fun i => i) 0 1); try lia. intros a b _ _ _ _. apply INR_eq. Qed.
