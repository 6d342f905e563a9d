(** C41: the batched CUDA loops. *)
From Coq Require Import Reals Bool List Arith Lia Lra.
From Verif Require Import Outcome Sums CudaModel CudaProofs.
Import ListNotations.

(** C41, fit: for every group size up to the size of the range, when every location is
    regular, the loop writes each location of the range once, in order, and the two
    hat-matrix statistics are the sums over exactly these locations (whatever lies
    behind the buffers).
    Missing from the full statement: group sizes 0 and beyond the range (refuted
    below). *)
Theorem C41_fit_partial : forall ok tr ss lo hi G, 0 < G ->
  (forall e, lo <= e < hi -> ok e = true) ->
  forall junk, G <= hi - lo ->
  exists st, fit_cuda ok tr ss junk lo hi G = Ok st /\
    seen st = seq lo (hi - lo) /\
    shat0 st = lsum (map tr (seq lo (hi - lo))) /\
    shat1 st = lsum (map ss (seq lo (hi - lo))).
Proof. exact fit_total. Qed.
Print Assumptions C41_fit_partial.

(** C41, criterion core: each location once, but the second statistic also contains
    the last group's stale buffer entries whenever G does not divide the range. *)
Theorem C41_shat_exact_partial : forall ok tr ss lo hi G, 0 < G ->
  (forall e, lo <= e < hi -> ok e = true) -> G <= hi - lo ->
  exists st, shat_cuda ok tr ss lo hi G = Ok st /\
    seen st = seq lo (hi - lo) /\
    shat0 st = lsum (map tr (seq lo (hi - lo))) /\
    shat1 st = (lsum (map ss (seq lo (hi - lo))) +
      (if Nat.eqb ((hi - lo) mod G) 0 then 0
       else lsum (map ss (seq (lo + ((hi - lo) / G - 1) * G + (hi - lo) mod G)
                              (G - (hi - lo) mod G)))))%R.
Proof. exact shat_total. Qed.
Print Assumptions C41_shat_exact_partial.
Example C41_case : 0 < 2 /\ (forall e, 0 <= e < 5 -> (fun _ => true) e = true) /\ 2 <= 5 - 0.
Proof. split; [lia|split; [reflexivity|lia]]. Qed.
Theorem C41_shat_sum_refuted : exists ok tr ss lo hi G st, 0 < G <= hi - lo /\
  (forall e, lo <= e < hi -> ok e = true) /\ shat_cuda ok tr ss lo hi G = Ok st /\
  shat1 st <> lsum (map ss (seq lo (hi - lo))).
Proof.
  exists (fun _ => true), (fun _ => 0%R), (fun _ => 1%R), 0, 3, 2. eexists.
  split; [lia|split; [reflexivity|split; [reflexivity|]]]. cbn. lra.
Qed.
Print Assumptions C41_shat_sum_refuted.

(** C41 refuted for group sizes beyond the range: the unused strides are zero, their
    inversion fails, so the fit always throws and the criterion core always returns
    without having visited anything, however regular the data. *)
Theorem C41_large_group_refuted : forall ok tr ss junk lo hi G, 0 < hi - lo < G ->
  fit_cuda ok tr ss junk lo hi G = Throw.
Proof. exact fit_large. Qed.
Print Assumptions C41_large_group_refuted.
Theorem C41_large_group_shat_refuted : forall ok tr ss lo hi G, 0 < hi - lo < G ->
  exists st, shat_cuda ok tr ss lo hi G = Ok st /\ seen st = [] /\ shat0 st = 0%R /\ shat1 st = 0%R.
Proof. intros; exists (c0 G); split; [now apply shat_large|auto]. Qed.
Print Assumptions C41_large_group_shat_refuted.
Example C41_large_case : 0 < 50 - 0 < 64.
Proof. lia. Qed.
(** ... and a group size of zero divides by zero. *)
Theorem C41_zero_group_refuted : forall ok tr ss junk lo hi, fit_cuda ok tr ss junk lo hi 0 = UB.
Proof. reflexivity. Qed.
Print Assumptions C41_zero_group_refuted.

(** C41, prediction: visits the indices of the data points, so it covers the prediction
    locations exactly when there are as many of them as data points. *)
Theorem C41_predict_partial : forall ok n G, 0 < G <= n -> (forall e, e < n -> ok e = true) ->
  exists st, predict_cuda ok n n G = Ok st /\ seen st = seq 0 n.
Proof. intros; now apply predict_all. Qed.
Print Assumptions C41_predict_partial.
Theorem C41_predict_exact_partial : forall ok nDp nRp G st, predict_cuda ok nDp nRp G = Ok st ->
  seen st = seq 0 nDp /\ nDp <= nRp.
Proof. exact predict_seen. Qed.
Print Assumptions C41_predict_exact_partial.
Theorem C41_predict_missed_refuted : exists ok st, (forall e, ok e = true) /\
  predict_cuda ok 2 3 2 = Ok st /\ ~ In 2 (seen st).
Proof.
  exists (fun _ => true). eexists. split; [reflexivity|split; [reflexivity|]]. cbn. lia.
Qed.
Print Assumptions C41_predict_missed_refuted.
Theorem C41_predict_bounds_refuted : exists ok, (forall e, ok e = true) /\ predict_cuda ok 3 2 3 = UB.
Proof. exists (fun _ => true). split; reflexivity. Qed.
Print Assumptions C41_predict_bounds_refuted.
Example C41_predict_case : exists st, predict_cuda (fun _ => true) 5 5 2 = Ok st.
Proof. eexists; reflexivity. Qed.
