(** C174, the weights: how many observations have a non-zero weight (BandwidthWeight.h:68-121, BandwidthWeight.cpp:35-58). *)
From Coq Require Import Reals List.
From Verif Require Import Outcome XReal KernelModel KernelSpec NbKern.
Import ListNotations.
Local Open Scope R_scope.

(** Kernels with bounded support and a bandwidth of m neighbours, no more than there are: fewer than m observations have a non-zero
    weight, the m-th neighbour itself having none; exactly m - 1 if no two distances are equal. *)
Theorem C174_adaptive_neighbours : forall k xb m xs ds, compact k = true -> xval xb = Some (INR m) -> xvals xs ds -> nonneg ds ->
  usable true (INR m) ds -> (m <= length ds)%nat ->
  exists rs, returns_values (bw_weight k true xb xs) rs /\ length rs = length ds /\
    (length (filter (fun r => if Req_EM_T r 0 then false else true) rs) < m)%nat /\
    (NoDup ds -> S (length (filter (fun r => if Req_EM_T r 0 then false else true) rs)) = m).
Proof. exact adaptive_main. Qed.
Print Assumptions C174_adaptive_neighbours.
Example C174_adaptive_case : usable true (INR 3) [0; 1; 2; 3] /\ nonneg [0; 1; 2; 3] /\ NoDup [0; 1; 2; 3].
Proof. exact line_case. Qed.

(** Fixed bandwidth: those at a distance below the bandwidth. *)
Theorem C174_fixed_neighbours : forall k xb b xs ds, compact k = true -> xval xb = Some b -> xvals xs ds -> nonneg ds -> 0 < b ->
  exists rs, returns_values (bw_weight k false xb xs) rs /\
    length (filter (fun r => if Req_EM_T r 0 then false else true) rs) = count_lt b ds.
Proof. exact fixed_count_main. Qed.
Print Assumptions C174_fixed_neighbours.
Example C174_fixed_case : xval (XF (5 / 2)) = Some (5 / 2) /\ xvals (map XF [0; 1; 2; 3]) [0; 1; 2; 3].
Proof. split; reflexivity. Qed.
