(** C82, C109, C113-C115: scalable GWR, neighbours, kernel and optimisation. *)
From Coq Require Import Reals Bool List ZArith Lra Lia.
From Verif Require Import Outcome XReal KernelModel GwssSpec GwssCases GwdrModel GwdrSpec ScaNnModel ScaNnSpec ScaOptModel ScaNnProofs ScaOptProofs ScaNb.
Import ListNotations.
Local Open Scope R_scope.

(** C82, refuted in general: whatever the data, if an observation is at distance zero from itself and
    at a positive distance from the others, it is the first of its own neighbours in CV mode, and
    contained twice in AIC mode. *)
Theorem C82_leaves_out_refuted : forall sort_index, sorts_indices sort_index -> forall dist n bw rows i,
  (forall i, (i < n)%nat -> length (dist i) = n) -> (0 < n)%nat -> (Z.of_nat n < 2 ^ 61)%Z ->
  0 <= bw -> bw < IZR (2 ^ 64) ->
  (i < n)%nat -> nth i (dist i) 0 = 0 -> (forall j, (j < n)%nat -> j <> i -> 0 < nth j (dist i) 0) ->
  (find_dp sort_index true bw dist n = Ok rows -> exists t ds, nth_error rows i = Some (i :: t, ds) /\ ~ In i t) /\
  (find_dp sort_index false bw dist n = Ok rows -> exists t ds, nth_error rows i = Some (i :: i :: t, ds) /\ ~ In i t).
Proof. exact own_list. Qed.
Print Assumptions C82_leaves_out_refuted.
Example C82_case : ((forall i, (i < 3)%nat -> length (d3 i) = 3%nat) /\
  forall i, (i < 3)%nat -> nth i (d3 i) 0 = 0 /\ forall j, (j < 3)%nat -> j <> i -> 0 < nth j (d3 i) 0) /\
  (exists rows, find_dp isort_index true 5 d3 3 = Ok rows) /\ exists rows, find_dp isort_index false 5 d3 3 = Ok rows.
Proof. exact (conj d3_case d3_rows). Qed.

(** C82: what the lists hold.  In prediction every location gets the observations nearest to it, as many as the bandwidth
    says and at most all of them; in fitting the lists are one shorter in CV mode, and in AIC mode the observation itself
    is put in front. *)
Theorem C82_prediction : forall sort_index, sorts_indices sort_index -> forall dist n bw,
  (Z.of_nat n < 2 ^ 61)%Z -> bw < IZR (2 ^ 64) ->
  forall rows, (forall i, (i < rows)%nat -> length (dist i) = n) -> 1 <= bw -> (0 < n)%nat ->
  exists l, find_nb sort_index bw dist n rows = Ok l /\ length l = rows /\
  forall i, (i < rows)%nat -> exists idx ds, nth_error l i = Some (idx, ds) /\
    nearest_to (dist i) (Nat.min (Z.to_nat (Int_part bw)) n) idx ds.
Proof. exact nb_main. Qed.
Print Assumptions C82_prediction.
Theorem C82_fitting : forall sort_index, sorts_indices sort_index -> forall dist n bw,
  (Z.of_nat n < 2 ^ 61)%Z -> bw < IZR (2 ^ 64) -> (forall i, (i < n)%nat -> length (dist i) = n) -> 0 <= bw ->
  forall cv l i, find_dp sort_index cv bw dist n = Ok l -> (i < n)%nat ->
  let k := Nat.min (Z.to_nat (Int_part bw)) n in
  if cv then exists idx ds, nth_error l i = Some (idx, ds) /\ nearest_to (dist i) (k - 1) idx ds
  else exists idx ds, nth_error l i = Some (i :: idx, 0 :: ds) /\ nearest_to (dist i) k idx ds.
Proof. exact dp_main. Qed.
Print Assumptions C82_fitting.

(** C82: the neighbour search reads nothing out of range: out-of-range requests are exceptions. *)
Theorem C82_in_range : forall sort_index, sorts_indices sort_index -> forall dist n bw,
  (forall i, (i < n)%nat -> length (dist i) = n) -> (0 < n)%nat -> (Z.of_nat n < 2 ^ 61)%Z ->
  0 <= bw -> bw < IZR (2 ^ 64) -> forall cv, first_stage sort_index cv bw dist n <> UB.
Proof. exact first_stage_not_ub. Qed.
Print Assumptions C82_in_range.

(** C82: when the search and the choice of the reference distance succeed: with the CV criterion for
    integer parts of the bandwidth above 50 or at least n, with AIC for integer parts at least one. *)
Theorem C82_succeeds_cv : forall sort_index, sorts_indices sort_index -> forall dist n bw,
  (forall i, (i < n)%nat -> length (dist i) = n) -> (0 < n)%nat -> (Z.of_nat n < 2 ^ 61)%Z ->
  0 <= bw -> bw < IZR (2 ^ 64) ->
  (exists r, first_stage sort_index true bw dist n = Ok r) <->
  (2 <= n)%nat /\ (50 < Int_part bw < Z.of_nat n \/ Z.of_nat n <= Int_part bw)%Z.
Proof. exact first_stage_cv. Qed.
Print Assumptions C82_succeeds_cv.
Theorem C82_succeeds_aic : forall sort_index, sorts_indices sort_index -> forall dist n bw,
  (forall i, (i < n)%nat -> length (dist i) = n) -> (0 < n)%nat -> (Z.of_nat n < 2 ^ 61)%Z ->
  0 <= bw -> bw < IZR (2 ^ 64) ->
  (exists r, first_stage sort_index false bw dist n = Ok r) <-> (1 <= Int_part bw)%Z /\ (2 <= n)%nat.
Proof. exact first_stage_aic. Qed.
Print Assumptions C82_succeeds_aic.

(** C82, refuted: isValid accepts every positive bandwidth, but with the default criterion every
    bandwidth below min(51, n) throws. *)
Theorem C82_valid_succeeds_refuted : forall sort_index, sorts_indices sort_index -> forall dist n bw,
  (forall i, (i < n)%nat -> length (dist i) = n) -> (0 < n)%nat -> (Z.of_nat n < 2 ^ 61)%Z ->
  0 <= bw -> (Int_part bw <= 50)%Z -> (Int_part bw < Z.of_nat n)%Z ->
  first_stage sort_index true bw dist n = Throw.
Proof. exact valid_throws. Qed.
Print Assumptions C82_valid_succeeds_refuted.
Example C82_valid_case : sca_valid Gaussian 2 = true /\ first_stage isort_index true (bandwidth_after 5 3) d3 3 = Throw.
Proof. split; [apply XRealFacts.Rltb_true; lra|exact (proj2 refit_throws)]. Qed.

(** C109: isValid accepts these two kernels only, with a positive bandwidth, ... *)
Theorem C109_valid : forall kernel bw, sca_valid kernel bw = true <-> (kernel = Gaussian \/ kernel = Exponential) /\ 0 < bw.
Proof. exact valid_iff. Qed.
Print Assumptions C109_valid.
(** ... the Gaussian option is a Gaussian kernel with bandwidth med / sqrt 3 ... *)
Theorem C109_gaussian : forall med d, 0 < med ->
  exists g, g0 Gaussian (XF med) (XF d) = Some g /\ xval g = Some (exp (- (3 * (d / med) ^ 2))).
Proof. exact (fun med d => g0_value Gaussian med d (or_introl eq_refl)). Qed.
Print Assumptions C109_gaussian.
(** ... but the Exponential option is another Gaussian kernel, not exp(- rate d) for any rate. *)
Theorem C109_exponential_refuted :
  (forall med d, 0 < med ->
     exists g, g0 Exponential (XF med) (XF d) = Some g /\ xval g = Some (exp (- (9 * (d / med) ^ 2)))) /\
  ~ exists rate, forall d, exists g, g0 Exponential (XF 1) (XF d) = Some g /\ xval g = Some (exp (- (rate * d))).
Proof. exact (conj (fun med d => g0_value Exponential med d (or_intror eq_refl)) exponential_not). Qed.
Print Assumptions C109_exponential_refuted.

(** C113, refuted: fitting changes the bandwidth of the object; three observations with bandwidth 5 are
    fitted the first time and refused the second time. *)
Theorem C113_refit_refuted : (exists r, first_stage isort_index true 5 d3 3 = Ok r) /\
  first_stage isort_index true (bandwidth_after 5 3) d3 3 = Throw.
Proof. exact refit_throws. Qed.
Print Assumptions C113_refit_refuted.

(** C114: if the setup of the minimiser succeeds, optimize ends after at most max(1, mMaxIter) steps and
    returns a point at which the criterion was evaluated, with the criterion of that point ... *)
Theorem C114_returns : forall f g m start, g_status g 0 = 0%Z -> best_seen g -> exists v x,
  sca_optimize f g m start = Some (Some v, x) /\ v = f x /\
  exists k, (k <= Nat.max 1 m)%nat /\ In x (calls g k) /\ x = g_x g k.
Proof. exact optimize_ok. Qed.
Print Assumptions C114_returns.
(** ... which is not worse than that of the start if the minimiser's best point never gets worse. *)
Theorem C114_not_worse : forall f g m start v x, g_status g 0 = 0%Z ->
  (forall k, f (g_x g (S k)) <= f (g_x g k)) -> f (g_x g 0) <= f start ->
  sca_optimize f g m start = Some (Some v, x) -> v <= f start.
Proof. exact optimize_better. Qed.
Print Assumptions C114_not_worse.
(** ... and if the setup fails, the parameters are those given and there is no criterion (DBL_MAX). *)
Theorem C114_setup_failed : forall f g m start, g_status g 0 <> 0%Z -> sca_optimize f g m start = Some (None, start).
Proof. exact setup_failed. Qed.
Print Assumptions C114_setup_failed.
Example C114_case : let g := mkGsl (fun k => [[/ INR (S k)]]) (fun _ => 0%Z) (fun k => [/ INR (S k)]) (fun _ => (-2)%Z) (fun _ => false) in
  let f := fun x => nth 0 x 0 in
  best_seen g /\ (forall k, f (g_x g (S k)) <= f (g_x g k)) /\ f (g_x g 0) <= f [1] /\
  sca_optimize f g 3 [1] = Some (Some (/ INR 4), [/ INR 4]).
Proof.
  cbv zeta. split; [|split; [|split]].
  - intros k. unfold calls. apply in_concat. exists [[/ INR (S k)]]. split; [|left; reflexivity].
    apply in_map_iff. exists k. split; [reflexivity|]. apply in_seq. lia.
  - intros k. cbn [nth g_x]. apply Rinv_le_contravar; [apply lt_0_INR; lia|apply le_INR; lia].
  - cbn [nth g_x]. simpl. lra.
  - reflexivity.
Qed.

(** C115: the AIC criterion that is minimised is the reported AICc of the same residual sum of squares and
    trace, for two or more observations. *)
Theorem C115_criterion : forall n sse trS, (2 <= n)%nat -> (Z.of_nat n < 2 ^ 64)%Z -> 0 < sse ->
  sca_criterion n sse trS = sca_aicc n sse trS.
Proof. exact criterion_same. Qed.
Print Assumptions C115_criterion.
