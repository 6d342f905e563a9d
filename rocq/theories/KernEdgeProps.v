(** C176: weights of undefined and infinitely distant observations, and of bandwidths below one neighbour (BandwidthWeight.cpp:35-61,
    BandwidthWeight.h:68-121, cuda/BandwidthWeightKernel.cu:6-118). *)
From Coq Require Import Reals List.
From Verif Require Import Outcome XReal KernelModel KernelSpec KernEdge.
Import ListNotations.
Local Open Scope R_scope.

(** An observation at an undefined distance has the weight NaN whatever the bandwidth, the Boxcar kernel apart, for which it has none. *)
Theorem C176_undefined : forall k adaptive b dist ws j, nth_error dist j = Some XN -> bw_weight k adaptive b dist = Ok ws ->
  exists w, nth_error ws j = Some w /\ match k with Boxcar => xval w = Some 0 | _ => w = XN end.
Proof. exact undefined_main. Qed.
Print Assumptions C176_undefined.
Example C176_undefined_case : exists ws, bw_weight Gaussian false (XF 1) [XF 0; XN] = Ok ws.
Proof. eexists. reflexivity. Qed.

(** With fewer neighbours than observations it is refused. *)
Theorem C176_refused : forall k xb b dist, xval xb = Some b -> b < INR (length dist) -> In XN dist -> bw_weight k true xb dist = Throw.
Proof. exact refused_main. Qed.
Print Assumptions C176_refused.
Example C176_refused_case : 1 < INR (length [XF 0; XN]) /\ In XN [XF 0; XN].
Proof. split; [apply (lt_INR 1 2); constructor|right; left; reflexivity]. Qed.

(** On the GPU the Boxcar kernel gives it full weight. *)
Theorem C176_undefined_cuda : forall k adaptive b dist ws j, b <> XF DBL_MAX -> nth_error dist j = Some XN ->
  cu_weight k adaptive b dist = Ok ws -> nth_error ws j = Some (match k with Boxcar => XF 1 | _ => XN end).
Proof. exact undefined_cuda_main. Qed.
Print Assumptions C176_undefined_cuda.
Example C176_cuda_case : cu_weight Boxcar false (XF 1) [XF 0; XN] = Ok (map (fun d => cu_boxcar d (XF 1)) [XF 0; XN]) /\ 1 <> DBL_MAX.
Proof. exact (conj (cuda_one _) one_max). Qed.
(** So CPU and GPU differ, and an observation that cannot be placed counts like one at the location itself. *)
Theorem C176_undefined_refuted : exists dist cpu gpu,
  bw_weight Boxcar false (XF 1) dist = Ok cpu /\ cu_weight Boxcar false (XF 1) dist = Ok gpu /\
  nth_error dist 1 = Some XN /\ (exists w, nth_error cpu 1 = Some w /\ xval w = Some 0) /\ nth_error gpu 1 = Some (XF 1).
Proof. exact undefined_refuted_main. Qed.
Print Assumptions C176_undefined_refuted.

(** An infinitely distant observation and a fixed bandwidth: no weight on the GPU; on the CPU no weight either with three of the kernels,
    but NaN with the other two, where zero is multiplied by infinity. *)
Theorem C176_infinite : forall k xb b dist j, xval xb = Some b -> 0 < b -> b <> DBL_MAX -> nth_error dist j = Some (XI false) ->
  (exists ws w, bw_weight k false xb dist = Ok ws /\ nth_error ws j = Some w /\
     match k with Bisquare | Tricube => w = XN | _ => xval w = Some 0 end) /\
  (exists ws w, cu_weight k false xb dist = Ok ws /\ nth_error ws j = Some w /\ xval w = Some 0).
Proof. exact infinite_main. Qed.
Print Assumptions C176_infinite.
Example C176_infinite_case : nth_error [XF 0; XI false] 1 = Some (XI false) /\ 1 <> DBL_MAX.
Proof. exact (conj eq_refl one_max). Qed.
Theorem C176_infinite_refuted : exists dist cpu,
  bw_weight Bisquare false (XF 1) dist = Ok cpu /\ nth_error dist 1 = Some (XI false) /\ nth_error cpu 1 = Some XN.
Proof. exact infinite_refuted_main. Qed.
Print Assumptions C176_infinite_refuted.

(** Fewer than one neighbour: an exception on the CPU for all distances, a read outside the distances on the GPU. *)
Theorem C176_below_one : forall k xb b dist, xval xb = Some b -> b < 1 -> bw_weight k true xb dist = Throw /\ cu_weight k true xb dist = UB.
Proof. exact below_one_main. Qed.
Print Assumptions C176_below_one.
Example C176_below_case : xval (XF (-3)) = Some (-3) /\ xval XNZ = Some 0.
Proof. split; reflexivity. Qed.
