(** C170: local sums and one-variable local regressions computed from coordinates in binary64.
    [order] is in RgwssModel.v; [r_local] and [r_slope] in RlocModel.v; [K] in KernelSpec.v; [at_point] and [planar] in RdistSpec.v; [adds] in RgwssSpec.v;
    [binary64] and [p2] in RoundSpec.v; everything else in RlocSpec.v. *)
From Coq Require Import Reals List ZArith.
From Verif Require Import Outcome XReal Sums KernelModel KernelSpec RoundSpec RdistSpec RdistCases RgwssModel RgwssSpec RgwssCases RlocModel RlocSpec RlocMain RlocCases.
Import ListNotations.
Local Open Scope R_scope.

(** Full statement: an entry of the local normal equations (with a location left out, or none) is the sum of K(d_j, h) x_j y_j over the points, d_j
    the exact distances and h the bandwidth of these distances, up to rounding.  Here with an error of at most
    (n 2^-49 + 2^-44) sum |x_j y_j| + n 2^-590, in any order of summation, for points and bandwidths of moderate size and every kernel but the boxcar. *)
Theorem C170_entry_partial : forall k adaptive xb b xo xps o ps leave t xx xy x y,
  xval xb = Some b -> at_point xo o -> Forall2 at_point xps ps -> sited adaptive b o ps -> k <> Boxcar ->
  (forall i, leave = Some i -> (i < length ps)%nat) -> column (p2 400) (length ps) xx x -> column (p2 400) (length ps) xy y -> adds (length ps) t ->
  exists h s v, bandwidth_at adaptive b o ps h /\
  r_local binary64 binary64_big (fun x => binary64 (exp x)) k adaptive xb xo xps leave t xx xy = Ok s /\ xval s = Some v /\
  Rabs (v - local_sum (K k) h leave o ps x y) <= slack (length ps) (magnitude x y).
Proof. exact entry_main. Qed.
Print Assumptions C170_entry_partial.

(** The coefficient of a local regression on one variable (multiscale regression) is the quotient T/S of the exact weighted sums, up to a relative error of 2^-49
    and three times (E_T + |T/S| E_S) / S, E being the errors granted to the sums, when S exceeds twice its own. *)
Theorem C170_slope_partial : forall k adaptive xb b xo xps o ps inv1 tx ty xx xy x y,
  xval xb = Some b -> at_point xo o -> Forall2 at_point xps ps -> sited adaptive b o ps -> k <> Boxcar -> inverts inv1 ->
  column (p2 200) (length ps) xx x -> column (p2 200) (length ps) xy y -> adds (length ps) tx -> adds (length ps) ty ->
  exists h, bandwidth_at adaptive b o ps h /\
  let S := local_sum (K k) h None o ps x x in let T := local_sum (K k) h None o ps x y in
  let Es := slack (length ps) (magnitude x x) in let Et := slack (length ps) (magnitude x y) in
  (p2 (-300) <= S -> 2 * Es <= S ->
   exists s v, r_slope binary64 binary64_big (fun x => binary64 (exp x)) k adaptive xb xo xps inv1 tx ty xx xy = Ok s /\ xval s = Some v /\
   Rabs (v - T / S) <= p2 (-49) * Rabs (T / S) + 3 * (Et + Rabs (T / S) * Es) / S + p2 (-999)).
Proof. exact slope_main. Qed.
Print Assumptions C170_slope_partial.
(** Two points near distance 1 of a third, bandwidth 2; a division is such an inversion; the condition on S holds with the bi-square kernel. *)
Example C170_case : Forall2 at_point [pair_XF tb; pair_XF tc] [tb; tc] /\ (sited true 2 ta [tb; tc] /\ sited false 2 ta [tb; tc]) /\
  (column (p2 200) 2 [XF 1; XF 2] [1; 2] /\ column (p2 200) 2 [XF 3; XNZ] [3; 0]) /\ adds 2 two /\ inverts div1 /\
  bandwidth_at false 2 ta [tb; tc] 2 /\
  let S := local_sum (K Bisquare) 2 None ta [tb; tc] [1; 2] [1; 2] in p2 (-300) <= S /\ 2 * slack 2 (magnitude [1; 2] [1; 2]) <= S.
Proof. exact (conj (proj1 RdistW.vector_case) (conj loc_sited (conj loc_column (conj two_adds (conj div1_inverts (conj eq_refl loc_large)))))). Qed.

(** Refuted for the boxcar kernel: a point inside the bandwidth, whose weight is 1, does not contribute at all: the entry is 0 instead of x y. *)
Theorem C170_boxcar_refuted : forall fe, exists b o p, sited false b o [p] /\ planar o p < b /\ K Boxcar (planar o p) b = 1 /\
  forall xx x xy y, column (p2 400) 1 xx [x] -> column (p2 400) 1 xy [y] ->
  exists s, r_local binary64 binary64_big fe Boxcar false (XF b) (pair_XF o) [pair_XF p] None (Leaf 0) xx xy = Ok s /\ xval s = Some 0.
Proof. exact boxcar_entry. Qed.
Print Assumptions C170_boxcar_refuted.
Example C170_boxcar_case : column (p2 400) 1 [XF 7] [7].
Proof. exact seven_column. Qed.
