(** Property theorems C12-C18 and C85: distances.  Vocabulary: DistSpec.v. *)
From Coq Require Import Reals Bool List ZArith Lra Lia.
From Verif Require Import Outcome XReal XRealFacts DistModel DistSpec DistProofs DistProofs2 DistCases.
Import ListNotations.
Local Open Scope R_scope.

(** C12: planar distances form a metric ... *)
Theorem C12_planar_metric : forall pts i j k,
  (i < length pts)%nat -> (j < length pts)%nat -> (k < length pts)%nat ->
  exists dij dji djk dik,
    entry (crs_distance (planar pts pts) i) j dij /\ entry (crs_distance (planar pts pts) j) i dji /\
    entry (crs_distance (planar pts pts) j) k djk /\ entry (crs_distance (planar pts pts) i) k dik /\
    0 <= dij /\ (dij = 0 <-> nth_error pts i = nth_error pts j) /\ dij = dji /\ dik <= dij + djk.
Proof. exact C12_metric_main. Qed.
Print Assumptions C12_planar_metric.
Example C12_case : entry (crs_distance (planar [(0, 0); (3, 4); (6, 8)] [(0, 0); (3, 4); (6, 8)]) 0) 1 5.
Proof. exact C12_case_main. Qed.

(** C12: the entry is the Euclidean distance of the two points. *)
Theorem C12_planar_value : forall fp dp i j o p,
  nth_error fp i = Some o -> nth_error dp j = Some p ->
  entry (crs_distance (planar fp dp) i) j
    (sqrt ((fst o - fst p) * (fst o - fst p) + (snd o - snd p) * (snd o - snd p))).
Proof. exact C12_value_main. Qed.
Print Assumptions C12_planar_value.

(** ... invariant under rotations and translations. *)
Theorem C12_planar_invariance : forall theta t fp dp i j d,
  entry (crs_distance (planar fp dp) i) j d ->
  entry (crs_distance (planar (map (move theta t) fp) (map (move theta t) dp)) i) j d.
Proof. exact C12_invariance_main. Qed.
Print Assumptions C12_planar_invariance.

(** C13: symmetry and identity. *)
Theorem C13_symmetric : forall lon1 lon2 lat1 lat2,
  SpGcdist lon1 lon2 lat1 lat2 = SpGcdist lon2 lon1 lat2 lat1 /\ SpGcdist lon1 lon1 lat1 lat1 = XF 0.
Proof. exact C13_symmetric_main. Qed.
Print Assumptions C13_symmetric.

(** C13: outside the early exit, and away from coincident and antipodal points,
    the value is positive and within 1.1% of the great-circle length. *)
Theorem C13_accurate : forall lon1 lon2 lat1 lat2 theta,
  central_angle lon1 lon2 lat1 lat2 theta -> 0 < theta < PI ->
  ~ (Rabs (lat1 - lat2) < / 10 ^ 8 /\
     (Rabs (lon1 - lon2) < / 10 ^ 8 \/ Rabs (Rabs lon1 + Rabs lon2 - 360) < / 10 ^ 8)) ->
  exists d, xval (SpGcdist lon1 lon2 lat1 lat2) = Some d /\ 0 < d /\
    Rabs (d - equatorial_radius_km * theta) <= 3 * flattening * (equatorial_radius_km * theta).
Proof. exact C13_accurate_main. Qed.
Print Assumptions C13_accurate.
Example C13_case : central_angle 0 90 0 0 (PI / 2) /\ 0 < PI / 2 < PI /\
  ~ (Rabs (0 - 0) < / 10 ^ 8 /\
     (Rabs (0 - 90) < / 10 ^ 8 \/ Rabs (Rabs 0 + Rabs 90 - 360) < / 10 ^ 8)).
Proof. exact C13_case_main. Qed.

(** C13: with longitudes in [-180,180] the early exit only fires for points that
    coincide on the globe up to 1e-8 degrees. *)
Theorem C13_zero_only_when_close : forall lon1 lon2 lat1 lat2,
  -180 <= lon1 <= 180 -> -180 <= lon2 <= 180 ->
  Rabs (lat1 - lat2) < / 10 ^ 8 /\
    (Rabs (lon1 - lon2) < / 10 ^ 8 \/ Rabs (Rabs lon1 + Rabs lon2 - 360) < / 10 ^ 8) ->
  Rabs (lat1 - lat2) < / 10 ^ 8 /\ exists k : Z, Rabs (lon1 - lon2 - 360 * IZR k) < / 10 ^ 8.
Proof. exact C13_close_main. Qed.
Print Assumptions C13_zero_only_when_close.

(** C13 is false for longitudes in [0,360): two equatorial points 20 degrees (about
    2226 km) apart are at distance 0. *)
Theorem C13_distinct_points_refuted : exists lon1 lon2 lat1 lat2 theta,
  0 <= lon1 < 360 /\ 0 <= lon2 < 360 /\ central_angle lon1 lon2 lat1 lat2 theta /\
  theta = PI / 9 /\ SpGcdist lon1 lon2 lat1 lat2 = XF 0.
Proof. exact C13_refuted_main. Qed.
Print Assumptions C13_distinct_points_refuted.

(** C14: extremes are bounds and are attained; in terms of the values distance()
    returns, for planar and geographic objects. *)
Theorem C14_crs_extremes : forall c fp dp rows,
  c_par c = Some (fp, dp) -> length rows = length fp -> rows <> [] ->
  (forall i r, nth_error rows i = Some r -> r <> [] /\
     exists v, crs_distance c i = Ok v /\ xvals v r) ->
  (forall r d, In r rows -> In d r -> 0 <= d <= DBL_MAX) ->
  exists xmax rmax xmin rmin,
    crs_maxDistance c = Ok xmax /\ xval xmax = Some rmax /\ is_max rows rmax /\
    crs_minDistance c = Ok xmin /\ xval xmin = Some rmin /\ is_min rows rmin.
Proof. exact C14_general_main. Qed.
Print Assumptions C14_crs_extremes.

(** C14: for planar objects after any call history no hypothesis on the values is
    left except that they do not exceed the largest double. *)
Theorem C14_planar_extremes : forall g0 ops pl fp dp,
  only_matrices ops -> last_param ops = Some pl -> describes pl fp dp -> last_geo ops g0 = false ->
  fp <> [] -> dp <> [] -> (forall o p, In o fp -> In p dp -> euclid o p <= DBL_MAX) ->
  exists xmax rmax xmin rmin,
    crs_maxDistance (crs_run (crs_new g0) ops) = Ok xmax /\ xval xmax = Some rmax /\
    is_max (map (fun o => map (euclid o) dp) fp) rmax /\
    crs_minDistance (crs_run (crs_new g0) ops) = Ok xmin /\ xval xmin = Some rmin /\
    is_min (map (fun o => map (euclid o) dp) fp) rmin.
Proof. exact C14_crs_main. Qed.
Print Assumptions C14_planar_extremes.
Example C14_case :
  let ops := [SetGeographic true; MakeParameter [PMat (coords [(0, 0)])]; SetGeographic false;
              MakeParameter [PMat (coords [(0, 0); (1, 0)]); PMat (coords [(3, 4); (1, 0)])]; ReplaceByClone] in
  let pl := [PMat (coords [(0, 0); (1, 0)]); PMat (coords [(3, 4); (1, 0)])] in
  only_matrices ops /\ last_param ops = Some pl /\ describes pl [(0, 0); (1, 0)] [(3, 4); (1, 0)] /\
  last_geo ops true = false /\
  (forall o p, In o [(0, 0); (1, 0)] -> In p [(3, 4); (1, 0)] -> euclid o p <= DBL_MAX).
Proof. exact C14_case_main. Qed.

Theorem C14_onedim_extremes : forall (fp dp : list R), fp <> [] -> dp <> [] ->
  (forall o p, In o fp -> In p dp -> Rabs (p - o) <= DBL_MAX) ->
  exists xmax rmax xmin rmin,
    onedim_maxDistance (Some (fp, dp)) = Ok xmax /\ xval xmax = Some rmax /\
    is_max (map (fun o => map (fun p => Rabs (p - o)) dp) fp) rmax /\
    onedim_minDistance (Some (fp, dp)) = Ok xmin /\ xval xmin = Some rmin /\
    is_min (map (fun o => map (fun p => Rabs (p - o)) dp) fp) rmin.
Proof. exact C14_onedim_main. Qed.
Print Assumptions C14_onedim_extremes.

(** C15: after any history in which every argument is a matrix (any number of
    arguments, any shapes, accepted or rejected), an answered query comes from
    the coordinates of the last makeParameter call, which was well formed.
    Missing from the full statement: histories with arguments of other variant
    alternatives, for which it is false (C15_no_stale_coordinates_refuted). *)
Theorem C15_no_stale_coordinates_partial : forall g0 ops f v,
  only_matrices ops -> crs_distance (crs_run (crs_new g0) ops) f = Ok v ->
  exists pl fp dp o, last_param ops = Some pl /\ describes pl fp dp /\
    nth_error fp f = Some o /\ v = map (crs_between (last_geo ops g0) o) dp.
Proof. exact C15_crs_main. Qed.
Print Assumptions C15_no_stale_coordinates_partial.

(** ... and conversely a well-formed last call is answered. *)
Theorem C15_fresh_coordinates_answered : forall g0 ops f pl fp dp o,
  only_matrices ops -> last_param ops = Some pl -> describes pl fp dp ->
  nth_error fp f = Some o ->
  crs_distance (crs_run (crs_new g0) ops) f = Ok (map (crs_between (last_geo ops g0) o) dp).
Proof. exact C15_crs_converse. Qed.
Print Assumptions C15_fresh_coordinates_answered.

Theorem C15_onedim_no_stale_values_partial : forall (pls : list (list dparam)) f v,
  (forall pl, In pl pls -> Forall (fun p => exists x, p = PVec x) pl) ->
  onedim_distance (fold_left (fun o pl => fst (onedim_makeParameter o pl)) pls onedim_new) f = Ok v ->
  exists fp dp x pls', pls = pls' ++ [[PVec fp; PVec dp]] /\ nth_error fp f = Some x /\
    v = map (fun d => XF (Rabs (d - x))) dp.
Proof. exact C15_onedim_main. Qed.
Print Assumptions C15_onedim_no_stale_values_partial.

(** C15: a rejected call with a vector argument leaves the old coordinates in place. *)
Theorem C15_no_stale_coordinates_refuted : exists c pl v,
  c = planar [(0, 0)] [(3, 4)] /\ snd (crs_makeParameter c pl) = Throw /\
  crs_distance (fst (crs_makeParameter c pl)) 0 = Ok v /\ v <> [].
Proof. exact C15_refuted_main. Qed.
Print Assumptions C15_no_stale_coordinates_refuted.

(** C15: CRSSTDistance answers from old coordinates even after a call rejected for
    its number of arguments or for differing sizes. *)
Theorem C15_spacetime_no_stale_refuted : forall pl,
  length pl <> 4%nat ->
  let d := spacetime (1/2) [(0, 0)] [(3, 4)] [5] [1] in
  snd (st_makeParameter d pl) = Throw /\
  exists v, st_distance (fst (st_makeParameter d pl)) 0 = Ok v /\ length v = 1%nat.
Proof. exact C15_st_refuted_main. Qed.
Print Assumptions C15_spacetime_no_stale_refuted.
Example C15_spacetime_case : length ([] : list dparam) <> 4%nat.
Proof. discriminate. Qed.

(** C15: focus indices out of range are always reported. *)
Theorem C15_out_of_range_reported :
  (forall c f v, crs_distance c f = Ok v -> exists fp dp, c_par c = Some (fp, dp) /\ (f < length fp)%nat) /\
  (forall m f v, mink_distance m f = Ok v -> exists fp dp, c_par (k_crs m) = Some (fp, dp) /\ (f < length fp)%nat) /\
  (forall o f v, onedim_distance o f = Ok v -> exists fp dp, o = Some (fp, dp) /\ (f < length fp)%nat) /\
  (forall d f v, st_distance d f = Ok v -> exists fp dp tfp tdp, c_par (s_spatial d) = Some (fp, dp) /\
     s_temporal d = Some (tfp, tdp) /\ (f < length fp)%nat /\ (f < length tfp)%nat) /\
  (forall d f v, dmatd_distance d f = Ok v -> exists r n, d = Some (r, n) /\ (f < n)%nat).
Proof. exact C15_range_main. Qed.
Print Assumptions C15_out_of_range_reported.

(** C15: which arguments each class accepts, whatever the object.  A DMatDistance reports no error for a wrong number of arguments. *)
Theorem C15_arguments :
  (forall c pl, snd (crs_makeParameter c pl) = Ok tt <-> exists fp dp, pl = [PMat fp; PMat dp] /\ m_cols fp = 2%nat /\ m_cols dp = 2%nat) /\
  (forall m pl, snd (mink_makeParameter m pl) = Ok tt <-> exists fp dp, pl = [PMat fp; PMat dp] /\ m_cols fp = 2%nat /\ m_cols dp = 2%nat) /\
  (forall o pl, snd (onedim_makeParameter o pl) = Ok tt <-> exists fp dp, pl = [PVec fp; PVec dp]) /\
  (forall d pl, snd (st_makeParameter d pl) = Ok tt <-> exists fp dp tfp tdp, pl = [PMat fp; PMat dp; PVec tfp; PVec tdp] /\
     m_cols fp = 2%nat /\ m_cols dp = 2%nat /\ m_rows fp = m_rows dp /\ m_rows dp = length tfp /\ length tfp = length tdp) /\
  (forall d pl, snd (dmatd_makeParameter d pl) = Ok tt <-> (exists s r, pl = [PUword s; PUword r]) \/ length pl <> 2%nat).
Proof. exact C15_arguments_main. Qed.
Print Assumptions C15_arguments.
Example C15_arguments_case : snd (crs_makeParameter (crs_new true) [PMat (mkMat 1 2 (fun _ _ => 0)); PMat (mkMat 3 2 (fun _ _ => 1))]) = Ok tt /\
  snd (onedim_makeParameter None [PVec [1]; PUword 2]) = Throw.
Proof. split; reflexivity. Qed.

(** C16: clones of CRSDistance and MinkwoskiDistance, after any history of the
    original and under any further calls on both. *)
Theorem C16_clone_equivalent_partial : forall g0 ops more f p theta,
  let c := crs_run (crs_new g0) ops in
  crs_distance (crs_run (crs_copy c) more) f = crs_distance (crs_run c more) f /\
  crs_maxDistance (crs_run (crs_copy c) more) = crs_maxDistance (crs_run c more) /\
  crs_minDistance (crs_run (crs_copy c) more) = crs_minDistance (crs_run c more) /\
  mink_distance (mink_copy (mkMink c p theta)) f = mink_distance (mkMink c p theta) f.
Proof. exact C16_clone_main. Qed.
Print Assumptions C16_clone_equivalent_partial.
Example C16_case : crs_distance (crs_copy (planar [(0, 0)] [(3, 4)])) 0 = Ok [XF (euclid (0, 0) (3, 4))].
Proof. exact C16_case_main. Qed.

(** C16 is false for the other classes: a parameterised object answers, its clone throws. *)
Theorem C16_clone_equivalent_refuted :
  (exists (o : onedim) v, onedim_distance o 0 = Ok v /\ onedim_distance (onedim_copy o) 0 = Throw) /\
  (exists (d d' : crsst) v, st_copy d = Ok d' /\ st_distance d 0 = Ok v /\ st_distance d' 0 = Throw) /\
  (exists (d : dmatd) v, dmatd_distance d 0 = Ok v /\ dmatd_distance (dmatd_copy d) 0 = Throw).
Proof. exact C16_refuted_main. Qed.
Print Assumptions C16_clone_equivalent_refuted.

(** C16: a space-time distance built with lambda outside [0,1] cannot be cloned. *)
Theorem C16_spacetime_clone_fails : forall s t lambda, ~ (0 <= lambda <= 1) ->
  st_copy (st_new s t lambda) = Throw.
Proof. exact C16_st_throw_main. Qed.
Print Assumptions C16_spacetime_clone_fails.
Example C16_spacetime_case : ~ (0 <= 2 <= 1).
Proof. lra. Qed.

(** C17: what distance() computes for each exponent: Chebyshev for 1, Manhattan for
    -1, nothing otherwise. *)
Theorem C17_dispatch : forall p theta fp dp f o,
  nth_error fp f = Some o ->
  let m := mkMink (planar fp dp) p theta in
  let turn q := if Req_EM_T theta 0 then q else
    (fst q * cos theta - snd q * sin theta, fst q * sin theta + snd q * cos theta) in
  (p = 1 -> mink_distance m f = Ok (map (fun q => XF (chebyshev (turn o) (turn q))) dp)) /\
  (p = -1 -> mink_distance m f = Ok (map (fun q => XF (manhattan (turn o) (turn q))) dp)) /\
  (p <> 1 -> p <> -1 -> mink_distance m f = Throw).
Proof. exact C17_dispatch_main. Qed.
Print Assumptions C17_dispatch.

(** C17: the same for objects as constructed and given their points by makeParameter; the default object (power two) never answers,
    while a default CRSDistance gives Euclidean distances. *)
Theorem C17_objects : forall p theta fp dp f, m_cols fp = 2%nat -> m_cols dp = 2%nat -> (f < m_rows fp)%nat ->
  let at_ m i := (m_at m i 0%nat, m_at m i 1%nat) in
  let made m := fst (mink_makeParameter m [PMat fp; PMat dp]) in
  let turn q := if Req_EM_T theta 0 then q else
    (fst q * cos theta - snd q * sin theta, fst q * sin theta + snd q * cos theta) in
  (p = 1 -> mink_distance (made (mink_new p theta)) f =
     Ok (map (fun i => XF (chebyshev (turn (at_ fp f)) (turn (at_ dp i)))) (seq 0 (m_rows dp)))) /\
  (p = -1 -> mink_distance (made (mink_new p theta)) f =
     Ok (map (fun i => XF (manhattan (turn (at_ fp f)) (turn (at_ dp i)))) (seq 0 (m_rows dp)))) /\
  (p <> 1 -> p <> -1 -> mink_distance (made (mink_new p theta)) f = Throw) /\
  mink_distance (made mink_default) f = Throw /\
  crs_distance (fst (crs_makeParameter crs_default [PMat fp; PMat dp])) f =
    Ok (map (fun i => XF (sqrt ((m_at dp i 0%nat - m_at fp f 0%nat) ^ 2 + (m_at dp i 1%nat - m_at fp f 1%nat) ^ 2))) (seq 0 (m_rows dp))).
Proof. exact C17_objects_main. Qed.
Print Assumptions C17_objects.
Example C17_objects_case : m_cols (mkMat 1 2 (fun _ _ => 0)) = 2%nat /\ m_cols (mkMat 3 2 (fun i _ => INR i)) = 2%nat /\ (0 < m_rows (mkMat 1 2 (fun _ _ => 0%R)))%nat.
Proof. cbn; lia. Qed.

(** C17 is false: exponent 1 is not the Manhattan distance, exponent 2 always fails. *)
Theorem C17_p_norm_refuted :
  (exists o q r, entry (mink_distance (mkMink (planar [o] [q]) 1 0) 0) 0 r /\ r <> manhattan o q) /\
  (forall theta fp dp f, mink_distance (mkMink (planar fp dp) 2 theta) f = Throw).
Proof. exact C17_refuted_main. Qed.
Print Assumptions C17_p_norm_refuted.

(** C17: maxDistance bounds the values for p = 1, minDistance for p = -1. *)
Theorem C17_bounds_partial : forall p theta fp dp f o v,
  (p = 1 \/ p = -1) ->
  let m := mkMink (mkCrs false CalcEuclid (Some (fp, dp))) p theta in
  dp <> [] -> nth_error fp f = Some o -> mink_distance m f = Ok v ->
  (forall o p, In o fp -> In p dp -> euclid o p <= DBL_MAX) ->
  exists xb b, xval xb = Some b /\
   (if Reqb p 1
    then mink_maxDistance m = Ok xb /\ forall d x, In x v -> xval x = Some d -> d <= b
    else mink_minDistance m = Ok xb /\ forall d x, In x v -> xval x = Some d -> b <= d).
Proof. exact C17_bound_main. Qed.
Print Assumptions C17_bounds_partial.

(** C17: the other two bounds fail. *)
Theorem C17_bounds_refuted :
  (exists fp dp r m xm, entry (mink_distance (mkMink (planar fp dp) 1 0) 0) 0 r /\
     mink_minDistance (mkMink (planar fp dp) 1 0) = Ok xm /\ xval xm = Some m /\ r < m) /\
  (exists fp dp r m xm, entry (mink_distance (mkMink (planar fp dp) (-1) 0) 0) 0 r /\
     mink_maxDistance (mkMink (planar fp dp) (-1) 0) = Ok xm /\ xval xm = Some m /\ m < r).
Proof. exact C17_bounds_refuted_main. Qed.
Print Assumptions C17_bounds_refuted.

(** C18: causality, formula and end points.  No double lies strictly between
    1 - 1e-16 and 1. *)
Theorem C18_spacetime_distance : forall lambda fp dp tfp tdp n f i o p tf t,
  0 <= lambda <= 1 -> (lambda = 1 \/ lambda <= 1 - / 10 ^ 16) ->
  length fp = n -> length dp = n -> length tfp = n -> length tdp = n ->
  nth_error fp f = Some o -> nth_error tfp f = Some tf ->
  nth_error dp i = Some p -> nth_error tdp i = Some t ->
  exists r, entry (st_distance (spacetime lambda fp dp tfp tdp) f) i r /\
    (lambda < 1 -> tf < t -> r = 10 ^ 13) /\
    (t <= tf -> r = st_formula lambda (euclid o p) (tf - t)) /\
    (lambda = 1 -> r = euclid o p) /\
    (lambda = 0 -> t <= tf -> r = tf - t) /\
    0 <= r.
Proof. exact C18_api_main. Qed.
Print Assumptions C18_spacetime_distance.
Example C18_case : entry (st_distance (spacetime (1/2) [(0, 0); (1, 1)] [(3, 4); (0, 0)] [5; 0] [5; 9]) 0) 0 (5/2) /\
  entry (st_distance (spacetime (1/2) [(0, 0); (1, 1)] [(3, 4); (0, 0)] [5; 0] [5; 9]) 0) 1 (10 ^ 13).
Proof. exact C18_case_main. Qed.

(** C18: the value grows with either component. *)
Theorem C18_monotone : forall lambda s t s' t', 0 <= lambda <= 1 -> 0 <= s <= s' -> 0 <= t <= t' ->
  0 <= lambda * s + (1 - lambda) * t + 2 * sqrt (lambda * (1 - lambda) * s * t) <=
       lambda * s' + (1 - lambda) * t' + 2 * sqrt (lambda * (1 - lambda) * s' * t').
Proof. exact C18_mono_main. Qed.
Print Assumptions C18_monotone.

(** C18: over any sequence of setLambda calls, exactly the arguments in [0,1] are
    accepted, rejected calls change nothing. *)
Theorem C18_setLambda : forall d ls,
  (s_lambda (st_sets d ls) = s_lambda d \/ 0 <= s_lambda (st_sets d ls) <= 1) /\
  (forall l, snd (st_setLambda (st_sets d ls) l) = Ok tt <-> 0 <= l <= 1) /\
  (forall l, 0 <= l <= 1 -> s_lambda (fst (st_setLambda (st_sets d ls) l)) = l) /\
  (forall l, ~ 0 <= l <= 1 -> fst (st_setLambda (st_sets d ls) l) = st_sets d ls).
Proof. exact C18_lambda_main. Qed.
Print Assumptions C18_setLambda.

(** C18: the oblique variant is non-negative too, whatever angle was given. *)
Theorem C18_oblique_nonnegative : forall s t lambda angle xs xt rs rt,
  0 <= lambda <= 1 -> xval xs = Some rs -> xval xt = Some rt -> 0 <= rs -> 0 <= rt ->
  let d := st_new_angle s t lambda angle in
  exists r, xval (st_entry (s_oblique d) (s_lambda d) (s_angle d) xs xt) = Some r /\
    lambda * rs + (1 - lambda) * rt <= r <= st_formula lambda rs rt.
Proof. exact C18_oblique_main. Qed.
Print Assumptions C18_oblique_nonnegative.

(** C18: the oblique variant in full, away from right angles: the cosine enters
    through its absolute value. *)
Theorem C18_oblique_value : forall s t lambda angle xs xt rs rt,
  0 <= lambda <= 1 -> / 10 ^ 15 <= Rabs (cos angle) ->
  xval xs = Some rs -> xval xt = Some rt -> 0 <= rs -> 0 <= rt ->
  let d := st_new_angle s t lambda angle in
  xval (st_entry (s_oblique d) (s_lambda d) (s_angle d) xs xt) =
    Some (lambda * rs + (1 - lambda) * rt + 2 * sqrt (lambda * (1 - lambda) * rs * rt) * Rabs (cos angle)).
Proof. exact C18_oblique_value_main. Qed.
Print Assumptions C18_oblique_value.
Example C18_oblique_case : / 10 ^ 15 <= Rabs (cos 0).
Proof. exact C18_oblique_case_main. Qed.

(** C18: for obtuse angles the documented formula, with the signed cosine, does not
    hold: atan(tan(angle)) folds the angle into (-pi/2, pi/2). *)
Theorem C18_oblique_angle_refuted : exists angle xs xt rs rt r,
  cos angle < 0 /\ xval xs = Some rs /\ xval xt = Some rt /\ 0 <= rs /\ 0 <= rt /\
  (let d := st_new_angle (crs_new false) onedim_new (1/2) angle in
   xval (st_entry (s_oblique d) (s_lambda d) (s_angle d) xs xt) = Some r) /\
  r <> 1/2 * rs + (1 - 1/2) * rt + 2 * sqrt (1/2 * (1 - 1/2) * rs * rt) * cos angle.
Proof. exact C18_oblique_refuted_main. Qed.
Print Assumptions C18_oblique_angle_refuted.

(** C85: the GPU distance vector equals the CPU one when there are as many focus
    points as data points ... *)
Theorem C85_cuda_distance_partial : forall c fp dp f,
  c_par c = Some (fp, dp) -> length fp = length dp -> crs_distance_cuda c f = crs_distance c f.
Proof. exact C85_main. Qed.
Print Assumptions C85_cuda_distance_partial.
Example C85_case : c_par (planar [(0, 0); (1, 1)] [(3, 4); (5, 5)]) = Some ([(0, 0); (1, 1)], [(3, 4); (5, 5)]).
Proof. reflexivity. Qed.

(** ... but has the wrong length otherwise: too short with fewer focus points,
    an out-of-bounds read with more. *)
Theorem C85_cuda_distance_refuted : forall fp dp f, (f < length fp)%nat ->
  ((length fp < length dp)%nat -> exists v, crs_distance_cuda (planar fp dp) f = Ok v /\ (length v < length dp)%nat) /\
  ((length dp < length fp)%nat -> crs_distance_cuda (planar fp dp) f = UB).
Proof. exact C85_refuted_main. Qed.
Print Assumptions C85_cuda_distance_refuted.
