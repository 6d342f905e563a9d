(** Proofs for C168: results of an earlier run, and examples. *)
From Coq Require Import Reals Bool List Arith Lia Lra Permutation Sorted.
From Verif Require Import Outcome XReal XRealFacts RSort Sums DiagModel DiagProofs GwssModel GwssSpec GwssProofs GwssCases GwssValues GwssObjModel GwssObjSpec GwssObjProofs GwssObjMain GwssObjCorr GwssObjCases.
Import ListNotations.
Local Open Scope R_scope.

Lemma has_fun m i j a b : has m i j a -> has m i j b -> a = b.
Proof. intros (v & E & X) (v' & E' & X'). congruence. Qed.
Lemma wcov_nonneg n w x : proper_weights n w -> 0 <= wcov n w x x.
Proof.
  intros PW. unfold wcov. apply Rmult_le_pos.
  - apply bigsum_nonneg. intros k K. apply Rmult_le_pos; [now apply PW|apply Rle_0_sqr].
  - left. apply Rinv_0_lt_compat. destruct PW as [P (k & K & Q)]. assert (N := bigsum_nonneg n w P). destruct (Req_dec (bigsum n w) 0) as [E|E]; [|lra].
    rewrite (bigsum_zero n w P E k K) in Q. lra.
Qed.
Lemma stale_main sort_index (SI : sorts_indices sort_index) d d' n w i j : n = d_rows d -> n = d_rows d' -> (2 <= d_vars d')%nat ->
  (forall k, (k < n)%nat -> proper_weights n (w k)) -> (i < n)%nat -> (j < d_vars d)%nat -> (j < d_vars d')%nat ->
  wcov n (w i) (d_x d j) (d_x d j) <> wcov n (w i) (d_x d' j) (d_x d' j) ->
  exists o1 o2 v, run sort_index (fun _ => false) false (seq 0 n) (create d n w) = Returns o1 /\
    run sort_index (fun _ => false) false (seq 0 n) (assign (SetMode Correlation) (assign (SetVariables d') o1)) = Returns o2 /\
    has (s_var (o_stats o2)) i j v /\ ~ has (s_sd (o_stats o2)) i j (sqrt v).
Proof.
  intros R R' V PW I J J' NE.
  destruct (average_case sort_index SI (create d n w) (fun _ => false) (seq 0 n)) as (o1 & E1 & SS & _ & _ & AV & _); try reflexivity; auto.
  { constructor. }
  { discriminate. }
  cbn [create o_locs o_data o_weight o_par] in AV. destruct (AV i j I J) as [A _]. destruct (A (fun _ _ => eq_refl)) as (_ & _ & SD & _).
  destruct SS as (_ & EL & EW & _ & _ & _ & EP & _). cbn [create o_locs o_weight o_par] in EL, EW, EP.
  set (o1' := assign (SetMode Correlation) (assign (SetVariables d') o1)).
  assert (RE : reachable sort_index o1') by (repeat apply R_assign; eapply R_returns; [apply R_create|exact E1]).
  destruct (correlation_case sort_index SI o1' (fun _ => false) (seq 0 n)) as (pairs & o2 & _ & _ & E2 & _ & _ & _ & MV & _ & KS & _).
  - exact RE.
  - reflexivity.
  - cbn. congruence.
  - exact V.
  - cbn. now rewrite EL.
  - cbn. rewrite EL, EW. auto.
  - exists o1, o2, (wcov n (w i) (d_x d' j) (d_x d' j)). split; [exact E1|]. split; [exact E2|].
    change (o_data o1') with d' in MV. change (o_locs o1') with (o_locs o1) in MV. change (o_weight o1') with (o_weight o1) in MV. change (o_par o1') with (o_par o1) in MV.
    rewrite EL, EW, EP in MV. destruct (MV i j I J') as [B _]. destruct (B (fun _ _ => eq_refl)) as [_ HV]. split; [exact HV|].
    rewrite KS. change (o_stats o1') with (o_stats o1). intros HS. apply NE. assert (Q := has_fun _ _ _ _ _ SD HS).
    apply sqrt_inj in Q; [exact Q| |]; apply wcov_nonneg; auto.
Qed.

(** Examples *)
Definition some_data : data := mkData 3 1 (fun _ k => INR k).
Definition five_points : data := mkData 5 2 (fun j k => INR (j + k)).
Lemma ones_proper n : (0 < n)%nat -> proper_weights n (fun _ => 1).
Proof. intros N. split; [intros; lra|]. exists 0%nat. split; [exact N|lra]. Qed.
Lemma average_example : let o := assign (SetQuantile true) (create five_points 5 (fun _ _ => 1)) in
  sorts_indices isort_index /\ reachable isort_index o /\ o_mode o = Average /\ o_locs o = d_rows (o_data o) /\
  (forall i, (i < o_locs o)%nat -> proper_weights (o_locs o) (o_weight o i)) /\
  (forall i j, (i < o_locs o)%nat -> (j < d_vars (o_data o))%nat -> light (o_locs o) (o_weight o i) (d_x (o_data o) j)) /\
  worked (o_par o) (fun i => Nat.eqb i 2) 1 /\ ~ worked (o_par o) (fun i => Nat.eqb i 2) 3.
Proof.
  cbv zeta. split; [exact isort_index_ok|]. split; [repeat constructor|]. split; [reflexivity|]. split; [reflexivity|].
  split; [intros; apply ones_proper; cbn; lia|]. split; [|split].
  - intros i j _ _ k _ _. unfold share. cbn [assign create o_locs o_weight]. cbn. lra.
  - cbn. intros j J. destruct j as [|[|j]]; try reflexivity. lia.
  - cbn. intros H. specialize (H 2%nat ltac:(lia)). discriminate.
Qed.
Lemma correlation_example : let o := assign (SetMode Correlation) (create five_points 5 (fun _ _ => 1)) in
  reachable isort_index o /\ o_mode o = Correlation /\ o_locs o = d_rows (o_data o) /\ (2 <= d_vars (o_data o))%nat /\
  (forall i, (i < o_locs o)%nat -> proper_weights (o_locs o) (o_weight o i)).
Proof. cbv zeta. split; [repeat constructor|]. split; [reflexivity|]. split; [reflexivity|]. split; [cbn; lia|]. intros. apply ones_proper. cbn; lia. Qed.
Lemma heavy_example : run isort_index (fun _ => false) false [0; 1; 2]%nat (assign (SetQuantile true) (create some_data 3 (fun _ _ => 1))) = Undefined.
Proof.
  apply (heavy_main isort_index isort_index_ok _ _ _ 0 0); try reflexivity; try (cbn; lia).
  - repeat constructor.
  - intros. apply ones_proper. cbn; lia.
  - intros k K _. unfold share. cbn [assign create o_locs o_weight]. cbn. lra.
Qed.
Lemma status_example : exists o' o'', run isort_index (fun _ => false) true [] (create five_points 5 (fun _ _ => 1)) = Returns o' /\
  run isort_index (fun _ => false) false (seq 0 5) o' = Returns o'' /\ o_term o'' = true.
Proof.
  exists (set_term true (create five_points 5 (fun _ _ => 1))).
  destruct (average_case isort_index isort_index_ok (set_term true (create five_points 5 (fun _ _ => 1))) (fun _ => false) (seq 0 5)) as (o' & E & _ & T & _); try reflexivity.
  - eapply (R_returns isort_index (fun _ => false) true []); [apply R_create|reflexivity].
  - intros. apply ones_proper. cbn; lia.
  - discriminate.
  - exists o'. split; [reflexivity|]. split; [exact E|]. apply T. now left.
Qed.
Lemma stale_example : wcov 3 (fun _ => 1) (d_x some_data 0) (d_x some_data 0) <> wcov 3 (fun _ => 1) (fun k => 2 * INR k) (fun k => 2 * INR k).
Proof. unfold wcov, wmean, some_data. cbn. lra. Qed.
