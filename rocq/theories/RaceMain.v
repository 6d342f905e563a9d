(** Proofs for C167. *)
From Coq Require Import Reals Bool List Arith Lia.
From Verif Require Import RaceModel RaceSpec.
Import ListNotations.

Section Loop.
Variable f : loop.
Variable c : settings.
Variables lo hi : nat.
Variable thr : nat -> nat.
Variable stop fine : nat -> bool.
Notation stopped := (stopped f stop).
Notation step := (step f stop fine).
Notation acc := (accesses f c lo thr stop fine).

Lemma before_in {A : Type} (l : list A) a b : before l a b -> In a l /\ In b l.
Proof. intros (p & q & r & ->). split; rewrite in_app_iff; right; [left; reflexivity|right; rewrite in_app_iff; right; left; reflexivity]. Qed.

(** What [runs] is at the end is what the iteration saw at its beginning. *)
Lemma runs_other evs : forall s i, ~ In (Begin i) evs -> runs (fold_left step evs s) i = runs s i.
Proof.
  induction evs as [|e t IH]; intros s i N; [reflexivity|]. cbn [fold_left]. rewrite IH by (intros H; apply N; right; exact H).
  destruct e as [k|k]; cbn [RaceModel.step].
  - unfold set. cbn [runs]. destruct (Nat.eqb_spec i k) as [->|]; [exfalso; apply N; left; reflexivity|reflexivity].
  - destruct (_ && _); reflexivity.
Qed.
Lemma runs_at p q i : NoDup (p ++ Begin i :: q) ->
  runs (run f stop fine (p ++ Begin i :: q)) i = negb (stopped i) && (flag (run f stop fine p) || negb (guard f)).
Proof.
  intros ND. unfold run. rewrite fold_left_app. cbn [fold_left]. rewrite runs_other.
  - cbn [RaceModel.step runs]. unfold set. now rewrite Nat.eqb_refl.
  - intros H. apply NoDup_remove_2 in ND. apply ND. rewrite in_app_iff. now right.
Qed.
Lemma flag_mono evs : forall s, flag s = false -> flag (fold_left step evs s) = false.
Proof. induction evs as [|e t IH]; intros s H; [exact H|]. cbn [fold_left]. apply IH. destruct e; cbn [RaceModel.step flag]; [exact H|]. destruct (_ && _); [reflexivity|exact H]. Qed.


(** All that are not stopped run when none of them fails. *)
Lemma flag_stays evs : forall s, flag s = true -> (forall i, runs s i = true -> stopped i = false) ->
  (forall i, In (End_ i) evs -> stopped i = false -> clears f = true -> fine i = true) ->
  flag (fold_left step evs s) = true.
Proof.
  induction evs as [|e t IH]; intros s F R A; [exact F|]. cbn [fold_left]. apply IH.
  - destruct e as [k|k]; cbn [RaceModel.step flag]; [exact F|]. destruct (runs s k) eqn:RK; [|exact F].
    destruct (clears f) eqn:C; [|rewrite andb_false_r; exact F].
    rewrite (A k (or_introl eq_refl) (R k RK) eq_refl). exact F.
  - intros i H. destruct e as [k|k]; cbn [RaceModel.step] in H.
    + cbn [runs] in H. unfold set in H. destruct (Nat.eqb_spec i k) as [EK|]; [rewrite EK|exact (R i H)]. apply andb_true_iff in H. destruct H as [H _]. now apply negb_true_iff in H.
    + destruct (_ && _); exact (R i H).
  - intros i H. apply A. now right.
Qed.
Lemma all_run evs i : execution lo hi thr evs -> (lo <= i < hi)%nat -> stopped i = false ->
  (forall k, (lo <= k < hi)%nat -> stopped k = false -> clears f = true -> fine k = true) -> runs (run f stop fine evs) i = true.
Proof.
  intros (ND & B & E & BE & _) I S A. destruct (BE i I) as (p & q & r & ->).
  rewrite runs_at by exact ND. rewrite S. cbn [negb andb].
  unfold run. rewrite flag_stays; [reflexivity|reflexivity|discriminate|].
  intros k K. apply A. apply E. rewrite in_app_iff. now left.
Qed.
Lemma unguarded_run evs i : execution lo hi thr evs -> (lo <= i < hi)%nat -> stopped i = false -> guard f = false -> runs (run f stop fine evs) i = true.
Proof.
  intros (ND & _ & _ & BE & _) I S G. destruct (BE i I) as (p & q & r & ->). rewrite runs_at by exact ND. rewrite S, G. cbn [negb andb]. apply orb_true_r.
Qed.
(** If one fails, one that fails runs. *)
Lemma some_failure evs i : execution lo hi thr evs -> (lo <= i < hi)%nat -> stopped i = false -> fine i = false ->
  exists k, (lo <= k < hi)%nat /\ stopped k = false /\ fine k = false /\ runs (run f stop fine evs) k = true.
Proof.
  intros EX I S F. assert (EX' := EX). destruct EX as (ND & B & E & BE & _). destruct (BE i I) as (p & q & r & EQ).
  destruct (flag (run f stop fine p)) eqn:FL.
  - exists i. repeat split; try assumption; try lia. rewrite EQ. rewrite runs_at by (rewrite <- EQ; exact ND). rewrite S, FL. reflexivity.
  - (* a failing iteration has cleared the flag in p *)
    assert (X : forall l s, flag s = true -> flag (fold_left step l s) = false -> exists a k b, l = a ++ End_ k :: b /\ runs (fold_left step a s) k = true /\ fine k = false).
    { clear. induction l as [|e t IH]; intros s T Fa; [cbn in Fa; congruence|]. cbn [fold_left] in Fa.
      destruct (flag (step s e)) eqn:FE.
      - destruct (IH _ FE Fa) as (a & k & b & -> & R & FK). exists (e :: a), k, b. split; [reflexivity|]. split; [exact R|exact FK].
      - destruct e as [k|k]; cbn [RaceModel.step] in FE; [cbn [flag] in FE; congruence|]. destruct (runs s k) eqn:RK; [|cbn [andb] in FE; congruence].
        destruct (fine k) eqn:FK; [cbn [negb andb] in FE; congruence|]. exists [], k, t. split; [reflexivity|]. split; [exact RK|exact FK]. }
    destruct (X p (mkState true (fun _ => false)) eq_refl FL) as (a & k & b & P & R & FK).
    assert (IK : In (End_ k) evs) by (rewrite EQ, P; rewrite !in_app_iff; left; right; left; reflexivity).
    pose proof (E k IK) as K. exists k. split; [exact K|].
    (* its beginning is in a *)
    destruct (BE k K) as (p' & q' & r' & EQ').
    assert (INA : In (Begin k) a).
    { destruct (in_dec (fun x y : event => ltac:(decide equality; apply Nat.eq_dec)) (Begin k) a) as [H|H]; [exact H|exfalso].
      rewrite runs_other in R by exact H. discriminate. }
    apply in_split in INA. destruct INA as (a1 & a2 & ->).
    assert (EVS : evs = a1 ++ Begin k :: (a2 ++ End_ k :: b) ++ Begin i :: q ++ End_ i :: r) by (rewrite EQ, P; repeat (rewrite <- app_assoc || rewrite <- app_comm_cons); reflexivity).
    assert (RK : runs (run f stop fine evs) k = true).
    { rewrite EVS. rewrite runs_at by (rewrite <- EVS; exact ND). rewrite fold_left_app in R. cbn [fold_left] in R. rewrite runs_other in R.
      - cbn [RaceModel.step runs] in R. unfold set in R. rewrite Nat.eqb_refl in R. exact R.
      - intros H. rewrite EVS in ND. apply NoDup_remove_2 in ND. apply ND. rewrite !in_app_iff. right. left. now left. }
    assert (SK : stopped k = false).
    { rewrite EVS in RK. rewrite runs_at in RK by (rewrite <- EVS; exact ND). apply andb_true_iff in RK. destruct RK as [RK _]. now apply negb_true_iff in RK. }
    auto.
Qed.

Lemma done_cases l k i t : In (l, k) (done f c lo i t) ->
  (l = Input /\ k = Rd) \/ (exists a, l = Own a i) \/ (exists a, l = PerThread a t) \/ l = Row (stored (is_store_s f c) lo i) \/
  (l = Slice (stored (storeC c) lo i) /\ f = Basic_fitCore) \/ (f = Ridge_cv /\ l = Counter) \/ (f = Ridge_fit /\ (l = TrS \/ l = TrStS)).
Proof.
  destruct f; cbn [done both app In is_store_s]; intros H;
    repeat match goal with H : _ \/ _ |- _ => destruct H as [H|H] end; try contradiction; injection H as <- <-; eauto 10.
Qed.
Lemma done_input i t : In (Input, Rd) (done f c lo i t).
Proof. left. reflexivity. Qed.

Lemma stored_inj b i j : b = true -> (lo <= i)%nat -> (lo <= j)%nat -> stored b lo i = stored b lo j -> i = j.
Proof. intros ->. unfold stored. lia. Qed.
Lemma kept_rows : rows_kept f c <-> is_store_s f c = true.
Proof.
  unfold rows_kept, is_store_s. destruct f; try (split; auto; fail).
  all: try (rewrite andb_true_iff, Nat.ltb_lt; reflexivity).
  all: try (rewrite Nat.leb_le; reflexivity).
  all: destruct (storeS c); rewrite ?andb_true_iff, ?Nat.ltb_lt; intuition congruence.
Qed.

Hypothesis FINE : forall i, (lo <= i < hi)%nat -> stopped i = false -> fine i = true.
Lemma fine_acc evs i l k : execution lo hi thr evs -> (lo <= i < hi)%nat -> In (l, k) (acc evs i) ->
  (stopped i = true /\ l = Status) \/ (stopped i = false /\ ((l = Flag /\ k = Rd) \/ In (l, k) (done f c lo i (thr i)))).
Proof.
  intros EX I H. unfold accesses in H. destruct (stopped i) eqn:S.
  - destruct H as [H|[]]. injection H as <- <-. auto.
  - right. split; [reflexivity|]. rewrite (all_run evs i EX I S) in H by (intros; auto). rewrite FINE in H by assumption.
    rewrite in_app_iff in H. destruct H as [H|H]; [|auto]. destruct (guard f); [|contradiction]. destruct H as [H|[]]. injection H as <- <-. auto.
Qed.
Lemma C167_free_main evs : f <> Ridge_cv -> f <> Ridge_fit -> execution lo hi thr evs ->
  (forall i j, (lo <= i < hi)%nat -> (lo <= j < hi)%nat -> stopped i = true -> stopped j = true -> thr i = thr j) ->
  rows_kept f c -> slices_kept f c -> ~ race lo hi thr (acc evs).
Proof.
  intros N1 N2 EX ST RK SK (i & j & l & k & k' & I & J & T & A & B & W).
  apply kept_rows in RK.
  destruct (fine_acc evs i l k EX I A) as [[S1 L1]|[S1 C1]]; destruct (fine_acc evs j l k' EX J B) as [[S2 L2]|[S2 C2]].
  - apply T. auto.
  - subst l. destruct C2 as [[X _]|X]; [discriminate|]. apply done_cases in X. decompose [or and ex] X; discriminate.
  - subst l. destruct C1 as [[X _]|X]; [discriminate|]. apply done_cases in X. decompose [or and ex] X; discriminate.
  - assert (NE : i <> j) by congruence.
    destruct C1 as [[-> ->]|D1].
    + destruct C2 as [[_ ->]|D2]; [destruct W; discriminate|]. apply done_cases in D2. decompose [or and ex] D2; discriminate.
    + destruct C2 as [[-> ->]|D2]; [apply done_cases in D1; decompose [or and ex] D1; discriminate|].
      apply done_cases in D1. apply done_cases in D2.
      destruct D1 as [[-> ->]|[[a ->]|[[a ->]|[->|[[-> F1]|[[F1 _]|[F1 _]]]]]]]; try contradiction;
      destruct D2 as [[E ->]|[[a' E]|[[a' E]|[E|[[E F2]|[[F2 _]|[F2 _]]]]]]]; try contradiction; try discriminate.
      * destruct W; discriminate.
      * injection E as _ E. contradiction.
      * injection E as _ E. contradiction.
      * injection E as E. apply NE. apply (stored_inj _ _ _ RK); [lia|lia|exact E].
      * injection E as E. rewrite F1 in SK. apply NE. apply (stored_inj _ _ _ SK); [lia|lia|exact E].
Qed.

Lemma in_acc evs i l k : execution lo hi thr evs -> (lo <= i < hi)%nat -> stopped i = false -> In (l, k) (done f c lo i (thr i)) -> In (l, k) (acc evs i).
Proof.
  intros EX I S D. unfold accesses. rewrite S, (all_run evs i EX I S) by (intros; auto). rewrite FINE by assumption. rewrite in_app_iff. now right.
Qed.
Lemma done_row i t : ~ rows_kept f c -> In (Row 0, Wr) (done f c lo i t).
Proof.
  intros N. rewrite kept_rows in N. apply not_true_is_false in N. destruct f; try (exfalso; cbn in N; discriminate);
    cbn [done both app In]; rewrite N; cbn [stored]; tauto.
Qed.
Lemma done_slice i t : ~ slices_kept f c -> In (Slice 0, Wr) (done f c lo i t).
Proof.
  intros N. destruct f; try (exfalso; apply N; exact I). cbn [slices_kept] in N. apply not_true_is_false in N.
  cbn [done both app In]; rewrite N; cbn [stored]; tauto.
Qed.
Lemma C167_unstored_main evs : execution lo hi thr evs -> shared_out lo hi thr stopped ->
  (~ rows_kept f c \/ ~ slices_kept f c) -> race lo hi thr (acc evs).
Proof.
  intros EX (i & j & I & J & T & S1 & S2) [N|N].
  - exists i, j, (Row 0), Wr, Wr. repeat split; try assumption; try lia; [| |auto]; apply in_acc; auto; apply done_row; exact N.
  - exists i, j, (Slice 0), Wr, Wr. repeat split; try assumption; try lia; [| |auto]; apply in_acc; auto; apply done_slice; exact N.
Qed.
Lemma C167_ridge_main evs : f = Ridge_cv \/ f = Ridge_fit -> execution lo hi thr evs -> shared_out lo hi thr stopped -> race lo hi thr (acc evs).
Proof.
  intros F EX (i & j & I & J & T & S1 & S2).
  assert (D : exists l, forall i t, In (l, Wr) (done f c lo i t)).
  { destruct F as [F|F]; rewrite F; [exists Counter|exists TrS]; intros; cbn; tauto. }
  destruct D as [l D]. exists i, j, l, Wr, Wr. repeat split; try assumption; try lia; [| |auto]; apply in_acc; auto.
Qed.
End Loop.

Section Failures.
Variable f : loop.
Variable c : settings.
Variables lo hi : nat.
Variable thr : nat -> nat.
Variable stop fine : nat -> bool.
Notation stopped := (stopped f stop).
Notation acc := (accesses f c lo thr stop fine).
Lemma C167_failure_main evs i : gives_up f -> execution lo hi thr evs -> shared_out lo hi thr stopped ->
  (lo <= i < hi)%nat -> stopped i = false -> fine i = false -> race lo hi thr (acc evs).
Proof.
  intros G EX (a & b & A & B & T & S1 & S2) I SI FI.
  destruct (some_failure f lo hi thr stop fine evs i EX I SI FI) as (k & K & SK & FK & RK).
  assert (WF : In (Flag, Wr) (failed f) /\ guard f = true) by (unfold gives_up in G; cbn [In] in G; decompose [or] G; try contradiction; subst f; cbn; tauto).
  destruct WF as [WF GF].
  assert (R : exists j, (lo <= j < hi)%nat /\ thr k <> thr j /\ stopped j = false).
  { destruct (Nat.eq_dec (thr k) (thr a)) as [E|E]; [exists b|exists a]; repeat split; try assumption; try lia; congruence. }
  destruct R as (j & J & TJ & SJ). exists k, j, Flag, Wr, Rd. repeat split; try assumption; try lia; [| |auto].
  - unfold accesses. rewrite SK, RK, FK. rewrite in_app_iff. right. exact WF.
  - unfold accesses. rewrite SJ, GF. left. reflexivity.
Qed.
Lemma C167_failures_main evs i j : goes_on f -> execution lo hi thr evs -> (lo <= i < hi)%nat -> (lo <= j < hi)%nat -> thr i <> thr j ->
  stopped i = false -> stopped j = false -> fine i = false -> fine j = false -> race lo hi thr (acc evs).
Proof.
  intros G EX I J T SI SJ FI FJ.
  assert (X : In (Except, Wr) (failed f) /\ (guard f = false \/ clears f = false)) by (unfold goes_on in G; cbn [In] in G; decompose [or] G; try contradiction; subst f; cbn; tauto).
  destruct X as [X Y].
  assert (R : forall k, (lo <= k < hi)%nat -> stopped k = false -> runs (run f stop fine evs) k = true).
  { intros k K SK. destruct Y as [Y|Y]; [now apply (unguarded_run f lo hi thr)|]. apply (all_run f lo hi thr); auto. intros; congruence. }
  exists i, j, Except, Wr, Wr. repeat split; try assumption; try lia; [| |auto]; unfold accesses.
  - rewrite SI, FI, (R i I SI), in_app_iff. now right.
  - rewrite SJ, FJ, (R j J SJ), in_app_iff. now right.
Qed.
Lemma C167_cancel_main evs i j : (lo <= i < hi)%nat -> (lo <= j < hi)%nat -> thr i <> thr j -> stopped i = true -> stopped j = true -> race lo hi thr (acc evs).
Proof.
  intros I J T S1 S2. exists i, j, Status, Wr, Wr. repeat split; try assumption; try lia; [| |auto]; unfold accesses; rewrite ?S1, ?S2; left; reflexivity.
Qed.
End Failures.
