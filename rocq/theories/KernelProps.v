(** Property theorems C01-C11: spatial weights.  Vocabulary: KernelSpec.v. *)
From Coq Require Import Reals Bool List ZArith Lra Lia Permutation.
From Verif Require Import Outcome XReal XRealFacts KernelModel KernelSpec KernelMain.
Import ListNotations.
Local Open Scope R_scope.

(** A concrete configuration meeting the common hypotheses: four distances, one
    of them zero, adaptive bandwidth 2.5 (interpolated between the 2nd and the
    3rd smallest distance). *)
Ltac decs := repeat match goal with
  | |- context [if Req_EM_T ?x ?y then _ else _] => destruct (Req_EM_T x y); try lra
  | |- context [if Rlt_dec ?x ?y then _ else _] => destruct (Rlt_dec x y); try lra
  | |- context [if Rle_dec ?x ?y then _ else _] => destruct (Rle_dec x y); try lra
  end.
Example config_usable : xval (XF (5/2)) = Some (5/2) /\
  xvals (map XF [0; 1; 3; 2]) [0; 1; 3; 2] /\ nonneg [0; 1; 3; 2] /\ usable true (5/2) [0; 1; 3; 2].
Proof.
  split; [reflexivity|]. split; [reflexivity|]. split; [repeat constructor; lra|].
  unfold usable, count_zero; simpl. decs. simpl. repeat split; try lra; lia.
Qed.
Example config_usable_fixed : nonneg [0; 1; 3; 2] /\ usable false 2 [0; 1; 3; 2].
Proof. split; [repeat constructor; lra|simpl; lra]. Qed.

(** C01: one finite weight in [0,1] per distance. *)
Theorem C01_weights_in_unit_interval : forall k adaptive xb b xs ds,
  xval xb = Some b -> xvals xs ds -> nonneg ds -> usable adaptive b ds ->
  exists rs, returns_values (bw_weight k adaptive xb xs) rs /\
    length rs = length ds /\ Forall (fun w => 0 <= w <= 1) rs.
Proof. exact C01_main. Qed.
Print Assumptions C01_weights_in_unit_interval.
Example C01_case : exists rs,
  returns_values (bw_weight Tricube true (XF (5/2)) (map XF [0; 1; 3; 2])) rs /\
  length rs = 4%nat /\ Forall (fun w => 0 <= w <= 1) rs.
Proof. destruct config_usable as (A & B & C & D). exact (C01_weights_in_unit_interval Tricube _ _ _ _ _ A B C D). Qed.

(** C02: farther points never get more weight. *)
Theorem C02_weights_decrease_with_distance : forall k adaptive xb b xs ds,
  xval xb = Some b -> xvals xs ds -> nonneg ds -> usable adaptive b ds ->
  exists rs, returns_values (bw_weight k adaptive xb xs) rs /\
  forall i j di dj, nth_error ds i = Some di -> nth_error ds j = Some dj -> di <= dj ->
    exists wi wj, nth_error rs i = Some wi /\ nth_error rs j = Some wj /\ wj <= wi.
Proof. exact C02_main. Qed.
Print Assumptions C02_weights_decrease_with_distance.
Example C02_case : xval (XF (5/2)) = Some (5/2) /\ nonneg [0; 1; 3; 2] /\ usable true (5/2) [0; 1; 3; 2] /\
  nth_error [0; 1; 3; 2] 1 = Some 1 /\ nth_error [0; 1; 3; 2] 2 = Some 3 /\ 1 <= 3.
Proof. destruct config_usable as (A & B & C & D). repeat split; auto; try apply D; lra. Qed.

(** C03: weight 1 at distance zero, which is the largest possible weight. *)
Theorem C03_zero_distance_full_weight : forall k adaptive xb b xs ds,
  xval xb = Some b -> xvals xs ds -> nonneg ds -> usable adaptive b ds ->
  exists rs, returns_values (bw_weight k adaptive xb xs) rs /\
  (forall i, nth_error ds i = Some 0 -> nth_error rs i = Some 1) /\ Forall (fun w => w <= 1) rs.
Proof. exact C03_main. Qed.
Print Assumptions C03_zero_distance_full_weight.
Example C03_case : usable true (5/2) [0; 1; 3; 2] /\ nth_error [0; 1; 3; 2] 0 = Some 0.
Proof. split; [apply config_usable|reflexivity]. Qed.

(** C04: compact kernels vanish exactly from the effective bandwidth on, the
    others never vanish. *)
Theorem C04_support : forall k adaptive xb b xs ds,
  xval xb = Some b -> xvals xs ds -> nonneg ds -> usable adaptive b ds ->
  exists h rs, (if adaptive then adaptive_bandwidth b ds h else h = b) /\
  returns_values (bw_weight k adaptive xb xs) rs /\
  forall i d, nth_error ds i = Some d -> exists w, nth_error rs i = Some w /\
    (if compact k then (w = 0 <-> h <= d) else 0 < w).
Proof. exact C04_main. Qed.
Print Assumptions C04_support.
Example C04_case : compact Bisquare = true /\ compact Gaussian = false /\ usable false 2 [0; 1; 3; 2].
Proof. repeat split; auto. apply config_usable_fixed. Qed.

(** C05: the weights are the textbook kernel of the distance and of the unique
    interpolated order statistic; an integer bandwidth m <= n means exactly the
    m-th smallest distance (so fewer than m points are strictly nearer and at
    least m points are at most that far). *)
Theorem C05_adaptive_bandwidth_is_order_statistic : forall k xb b xs ds,
  xval xb = Some b -> xvals xs ds -> nonneg ds -> usable true b ds ->
  exists h, adaptive_bandwidth b ds h /\ (forall h', adaptive_bandwidth b ds h' -> h' = h) /\
    (forall m, b = INR m -> (m <= length ds)%nat -> kth_smallest m ds h) /\
    returns_values (bw_weight k true xb xs) (map (fun d => K k d h) ds).
Proof. exact C05_main. Qed.
Print Assumptions C05_adaptive_bandwidth_is_order_statistic.
Example C05_case : adaptive_bandwidth (5/2) [0; 1; 3; 2] (3/2).
Proof.
  split; simpl; intros; [|lra].
  exists 2%nat, 1, 2. unfold kth_smallest, count_lt, count_le. simpl. decs. simpl.
  repeat split; auto; try lra; lia.
Qed.

(** C05, fixed bandwidths: the textbook kernel of the distance and the bandwidth. *)
Theorem C05_fixed_bandwidth_is_used : forall k xb b xs ds, xval xb = Some b -> xvals xs ds -> nonneg ds -> 0 < b ->
  returns_values (bw_weight k false xb xs) (map (fun d => K k d b) ds).
Proof. exact fixed_main. Qed.
Print Assumptions C05_fixed_bandwidth_is_used.

(** C06: a larger bandwidth never lowers a weight. *)
Theorem C06_weights_monotone_in_bandwidth : forall k adaptive xb xb' b b' xs ds,
  xval xb = Some b -> xval xb' = Some b' -> xvals xs ds -> nonneg ds ->
  usable adaptive b ds -> b <= b' ->
  exists rs rs', returns_values (bw_weight k adaptive xb xs) rs /\
    returns_values (bw_weight k adaptive xb' xs) rs' /\ Forall2 Rle rs rs'.
Proof. exact C06_main. Qed.
Print Assumptions C06_weights_monotone_in_bandwidth.
Example C06_case : usable true (5/2) [0; 1; 3; 2] /\ 5/2 <= 7.
Proof. split; [apply config_usable|lra]. Qed.

(** C07: reordering the observations reorders the weights the same way. *)
Theorem C07_permutation_equivariance : forall k adaptive xb b xs xs' ds p,
  xval xb = Some b -> xvals xs ds -> nonneg ds -> usable adaptive b ds ->
  Permutation p (seq 0 (length ds)) -> xvals xs' (pick ds p) ->
  exists rs, returns_values (bw_weight k adaptive xb xs) rs /\
    returns_values (bw_weight k adaptive xb xs') (pick rs p).
Proof. exact C07_main. Qed.
Print Assumptions C07_permutation_equivariance.
Example C07_case : Permutation [2; 0; 3; 1]%nat (seq 0 (length [0; 1; 3; 2])) /\
  xvals (map XF [3; 0; 2; 1]) (pick [0; 1; 3; 2] [2; 0; 3; 1]%nat).
Proof.
  split; [|reflexivity]. simpl. symmetry.
  apply Permutation_cons_app with (l1 := [2%nat]) (l2 := [3; 1]%nat). simpl.
  apply Permutation_cons_app with (l1 := [2; 3]%nat) (l2 := []). simpl. auto.
Qed.

(** C08: the unit of length does not matter. *)
Theorem C08_unit_invariance : forall k (adaptive : bool) c xb xb' b xs xs' ds,
  0 < c -> xval xb = Some b -> xval xb' = Some (if adaptive then b else c * b) ->
  xvals xs ds -> xvals xs' (map (Rmult c) ds) -> nonneg ds -> usable adaptive b ds ->
  exists rs, returns_values (bw_weight k adaptive xb xs) rs /\
    returns_values (bw_weight k adaptive xb' xs') rs.
Proof. exact C08_main. Qed.
Print Assumptions C08_unit_invariance.
Example C08_case : 0 < 1000 /\ usable false 2 [0; 1; 3; 2] /\ usable true (5/2) [0; 1; 3; 2].
Proof. split; [lra|]. split; [apply config_usable_fixed|apply config_usable]. Qed.

(** C09 (as stated: refuted).  A positive adaptive bandwidth below 1, which
    isValid accepts, makes every weight computation throw. *)
Theorem C09_valid_bandwidth_weightable_refuted : exists k b ds,
  0 < b /\ ds <> [] /\ nonneg ds /\ bw_weight k true (XF b) (map XF ds) = Throw.
Proof.
  exists Gaussian, (1/2), [1; 2]. split; [lra|]. split; [discriminate|].
  split; [repeat constructor; lra|].
  destruct (C09_main Gaussian true (XF (1/2)) (1/2) (map XF [1; 2]) [1; 2] eq_refl eq_refl)
    as [[E _]|[ws [_ [_ [F|[F _]]]]]]; [lra|exact E|discriminate|lra].
Qed.
Print Assumptions C09_valid_bandwidth_weightable_refuted.

(** C09, exact failure condition: for a positive finite bandwidth and finite
    distances the call throws exactly in adaptive mode with a bandwidth below 1
    or an empty distance vector; otherwise it returns one weight per distance;
    it never has undefined behaviour. *)
Theorem C09_failure_condition : forall k adaptive xb b xs ds,
  xval xb = Some b -> xvals xs ds -> 0 < b ->
  (bw_weight k adaptive xb xs = Throw /\ adaptive = true /\ (b < 1 \/ ds = [])) \/
  (exists ws, bw_weight k adaptive xb xs = Ok ws /\ length ws = length ds /\
     (adaptive = false \/ (1 <= b /\ ds <> []))).
Proof. exact C09_main. Qed.
Print Assumptions C09_failure_condition.
Example C09_case : xval (XF 3) = Some 3 /\ xvals (map XF [1; 2]) [1; 2] /\ 0 < 3.
Proof. repeat split; lra. Qed.

(** C10 (as stated: refuted).  Two coincident points besides the focus: the
    weights are not finite numbers although the configuration is valid. *)
Theorem C10_weights_finite_refuted : exists k b ds,
  1 <= b /\ ds <> [] /\ nonneg ds /\ b < INR (length ds) /\
  (exists ws, bw_weight k true (XF b) (map XF ds) = Ok ws) /\
  ~ exists rs, returns_values (bw_weight k true (XF b) (map XF ds)) rs.
Proof.
  exists Bisquare, 2, [0; 0; 5]. split; [lra|]. split; [discriminate|].
  split; [repeat constructor; lra|]. split; [simpl; lra|]. split.
  - destruct (C09_main Bisquare true (XF 2) 2 (map XF [0; 0; 5]) [0; 0; 5] eq_refl eq_refl)
      as [[_ [_ [F|F]]]|[ws [E _]]]; [lra|lra|discriminate|exists ws; exact E].
  - intros H. apply (C10_main Bisquare (XF 2) 2 (map XF [0; 0; 5]) [0; 0; 5]) in H;
      try reflexivity; try discriminate; try lra; [|repeat constructor; lra].
    destruct H as [H _]. unfold count_zero in H. simpl in H. revert H. decs. simpl. lra.
Qed.
Print Assumptions C10_weights_finite_refuted.

(** C10, exact condition: apart from Boxcar, the weights are finite numbers if
    and only if fewer points than the bandwidth (and not all points) coincide
    with the focus. *)
Theorem C10_finite_iff : forall k xb b xs ds, k <> Boxcar -> xval xb = Some b -> xvals xs ds ->
  nonneg ds -> ds <> [] -> 1 <= b ->
  ((exists rs, returns_values (bw_weight k true xb xs) rs) <->
   (INR (count_zero ds) < b /\ (count_zero ds < length ds)%nat)).
Proof. exact C10_main. Qed.
Print Assumptions C10_finite_iff.

(** Boxcar in the degenerate case: all weights vanish, also that of the focus. *)
Theorem C10_boxcar_degenerate : forall xb b xs ds, xval xb = Some b -> xvals xs ds ->
  nonneg ds -> ds <> [] -> 1 <= b -> ~ usable true b ds ->
  returns_values (bw_weight Boxcar true xb xs) (map (fun _ => 0) ds).
Proof. exact C10_boxcar_main. Qed.
Print Assumptions C10_boxcar_degenerate.
Example C10_case : nonneg [0; 0; 5] /\ 1 <= 2 /\ ~ usable true 2 [0; 0; 5] /\ usable true (5/2) [0; 0; 5].
Proof.
  split; [repeat constructor; lra|]. split; [lra|]. unfold usable, count_zero. simpl. decs. simpl.
  split; [lra|]. repeat split; try lra; lia.
Qed.

(** C11, agreement part: outside Boxcar, the CUDA weights equal the CPU weights
    for fixed bandwidths and for integer adaptive bandwidths up to n.  (The
    bandwidth DBL_MAX is the CUDA code's marker for "no weighting".) *)
Theorem C11_cpu_gpu_agree_partial : forall k adaptive xb b xs ds,
  k <> Boxcar -> xval xb = Some b -> xvals xs ds -> nonneg ds -> usable adaptive b ds ->
  b <> DBL_MAX ->
  (adaptive = true -> exists m, b = INR m /\ (m <= length ds)%nat) ->
  exists rs, returns_values (bw_weight k adaptive xb xs) rs /\
             returns_values (cu_weight k adaptive xb xs) rs.
Proof. exact C11_agree_main. Qed.
Print Assumptions C11_cpu_gpu_agree_partial.
Lemma DBL_MAX_large : 1000 < DBL_MAX.
Proof. unfold DBL_MAX. apply IZR_lt. reflexivity. Qed.
Example C11_case : usable true 2 [0; 1; 3; 2] /\ 2 <> DBL_MAX /\ 2 = INR 2 /\ (2 <= length [0; 1; 3; 2])%nat.
Proof.
  pose proof DBL_MAX_large. unfold usable, count_zero. simpl. decs. simpl.
  repeat split; try lra; lia.
Qed.

(** C11, exact weights of the CUDA code: the textbook kernel (Boxcar with its boundary) of the fixed bandwidth, or
    of the m-th smallest distance where m is the integer part of the adaptive bandwidth, at most n; weight one
    everywhere for the bandwidth DBL_MAX. *)
Theorem C11_gpu_fixed_values : forall k xb b xs ds, xval xb = Some b -> xvals xs ds -> 0 < b -> b <> DBL_MAX ->
  returns_values (cu_weight k false xb xs) (map (fun d => cu_K k d b) ds).
Proof. exact cu_fixed_main. Qed.
Print Assumptions C11_gpu_fixed_values.
Theorem C11_gpu_adaptive_values : forall k xb b xs ds m h, xval xb = Some b -> xvals xs ds -> b <> DBL_MAX -> (1 <= m)%nat ->
  (m = length ds /\ INR m <= b \/ (m < length ds)%nat /\ INR m <= b < INR m + 1) -> kth_smallest m ds h -> 0 < h ->
  returns_values (cu_weight k true xb xs) (map (fun d => cu_K k d h) ds).
Proof. exact cu_values. Qed.
Print Assumptions C11_gpu_adaptive_values.
Theorem C11_gpu_unweighted : forall k adaptive xs, cu_weight k adaptive (XF DBL_MAX) xs = Ok (map (fun _ => XF 1) xs).
Proof. exact cu_unweighted. Qed.
Print Assumptions C11_gpu_unweighted.
Example C11_gpu_case : 5 / 2 <> DBL_MAX /\ (2 < length [0; 1; 3; 2])%nat /\ INR 2 <= 5 / 2 < INR 2 + 1 /\
  kth_smallest 2 [0; 1; 3; 2] 1.
Proof.
  assert (1000 < DBL_MAX) by (unfold DBL_MAX; apply IZR_lt; reflexivity).
  unfold kth_smallest, count_lt, count_le. simpl. decs. simpl. repeat split; auto; try lra; lia.
Qed.

(** C11, Boxcar: with an integer adaptive bandwidth the two implementations
    always disagree (weight 0 on the CPU, 1 on the GPU, for the m-th neighbour). *)
Theorem C11_boxcar_always_disagrees : forall xb m xs ds,
  xval xb = Some (INR m) -> xvals xs ds -> nonneg ds -> usable true (INR m) ds ->
  (m <= length ds)%nat -> INR m <> DBL_MAX ->
  exists rs rs' i, returns_values (bw_weight Boxcar true xb xs) rs /\
    returns_values (cu_weight Boxcar true xb xs) rs' /\
    nth_error rs i = Some 0 /\ nth_error rs' i = Some 1.
Proof. exact C11_boxcar_main. Qed.
Print Assumptions C11_boxcar_always_disagrees.

(** C11 (as stated: refuted), with a compact witness. *)
Theorem C11_cpu_gpu_agree_refuted : exists k b ds,
  usable true b ds /\ nonneg ds /\
  forall rs, ~ (returns_values (bw_weight k true (XF b) (map XF ds)) rs /\
                returns_values (cu_weight k true (XF b) (map XF ds)) rs).
Proof.
  exists Boxcar, 2, [0; 1; 3; 2].
  destruct C11_case as (U & NM & E & L).
  assert (NN : nonneg [0; 1; 3; 2]) by (repeat constructor; lra).
  split; [exact U|]. split; [exact NN|]. intros rs [H1 H2]. rewrite E in U.
  destruct (C11_boxcar_main (XF 2) 2 (map XF [0;1;3;2]) [0;1;3;2] ltac:(simpl; f_equal; lra) eq_refl NN U L)
    as (r & r' & i & A & B & C & D); [simpl; lra|].
  rewrite (returns_values_unique _ _ _ H1 A) in H2.
  pose proof (returns_values_unique _ _ _ H2 B). subst r'. rewrite C in D. inversion D. lra.
Qed.
Print Assumptions C11_cpu_gpu_agree_refuted.
