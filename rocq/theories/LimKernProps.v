(** C175, the weights: those of a large bandwidth are close to 1 (BandwidthWeight.h:68-121, BandwidthWeight.cpp:35-58). *)
From Coq Require Import Reals List.
From Verif Require Import Outcome XReal KernelModel KernelSpec LimKern.
Import ListNotations.
Local Open Scope R_scope.

(** Fixed bandwidths: every kernel, uniformly in the distances up to D. *)
Theorem C175_fixed_weights : forall k D e, 0 <= D -> 0 < e -> exists b0, 0 < b0 /\
  forall xb b xs ds, xval xb = Some b -> b0 <= b -> xvals xs ds -> nonneg ds -> Forall (fun d => d <= D) ds ->
  exists rs, returns_values (bw_weight k false xb xs) rs /\ Forall (fun r => Rabs (r - 1) <= e) rs.
Proof. exact fixed_limit. Qed.
Print Assumptions C175_fixed_weights.
Example C175_fixed_case : xval (XF 100) = Some 100 /\ xvals (map XF [0; 1; 2; 3]) [0; 1; 2; 3] /\ nonneg [0; 1; 2; 3] /\
  Forall (fun d => d <= 3) [0; 1; 2; 3].
Proof. exact far_case. Qed.

(** Adaptive bandwidths larger than the number of observations: the number from which they are close to 1 does not depend on the
    distances, only on how many there are, unless all are zero. *)
Theorem C175_adaptive_weights : forall k n e, (0 < n)%nat -> 0 < e -> exists b0, 0 < b0 /\
  forall xb b xs ds, xval xb = Some b -> b0 <= b -> xvals xs ds -> nonneg ds -> length ds = n -> (count_zero ds < n)%nat ->
  exists rs, returns_values (bw_weight k true xb xs) rs /\ Forall (fun r => Rabs (r - 1) <= e) rs.
Proof. exact adaptive_limit. Qed.
Print Assumptions C175_adaptive_weights.
Example C175_adaptive_case : length [0; 1; 2; 3] = 4%nat /\ (count_zero [0%R; 1; 2; 3]%R < 4)%nat.
Proof. exact far_count. Qed.
