(** Model of the planar distance with rounding, and of the weights computed from it.
    Source: include/gwmodelpp/spatialweight/CRSDistance.h:96-100 (EuclideanDistance), SpatialWeight.h (weightVector);
    conventions of RoundModel.v.  DistModel.euclid is the same over exact numbers.
    Simplified: the addition of the first square to the zero from which arma::sum starts is left out (it is exact); no fused
    multiply-add. *)
From Coq Require Import Reals List.
From Verif Require Import Outcome XReal KernelModel RoundModel.
Local Open Scope R_scope.

Section Rdist.
Variables (rn : R -> R) (big : R) (fe : R -> R).
Definition rsqrt (x : xd) : xd := rd rn big (xsqrt x).

(** "diff = in_locs.each_row() - out_loc; return sqrt(sum(diff % diff, 1))", the entry of the data point [p] *)
Definition r_euclid (o p : xd * xd) : xd :=
  let dx := rsub rn big (fst p) (fst o) in
  let dy := rsub rn big (snd p) (snd o) in
  rsqrt (radd rn big (rmul rn big dx dx) (rmul rn big dy dy)).
Definition r_distances (o : xd * xd) (ps : list (xd * xd)) : list xd := map (r_euclid o) ps.
(** SpatialWeight::weightVector: mWeight->weight(mDistance->distance(focus)) *)
Definition r_weight_vector (k : kernel) (adaptive : bool) (b : xd) (o : xd * xd) (ps : list (xd * xd)) : outcome (list xd) :=
  r_weight rn big fe k adaptive b (r_distances o ps).
End Rdist.
