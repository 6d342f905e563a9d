(** C159: distances on the device over several calls. *)
From Coq Require Import Reals Bool List Arith.
From Verif Require Import Outcome XReal DistModel DevDistModel DevDistSpec DevDistProofs DevDistCases.
Import ListNotations.
Local Open Scope R_scope.

(** When all coordinates are set before the first preparation (or copy), and there are as many focus points as data points, the
    distances on the device are those of the host, whatever else is called. *)
Theorem C159_current_partial : forall geo before after d f fp dp, Forall host_only before -> Forall no_coordinates after ->
  run (dev_new geo) (before ++ after ++ [Prepare]) = Ok d -> c_par (v_host d) = Some (fp, dp) -> length fp = length dp ->
  dev_distance d f = host_distance d f.
Proof. exact first_main. Qed.
Print Assumptions C159_current_partial.
Example C159_current_case : exists d,
  run (dev_new false) ([MakeParameter [PMat corner; PMat corner]; SetUse true] ++ [Copy; SetGeographic true; Prepare; SetUse false; Copy] ++ [Prepare]) = Ok d /\
  c_par (v_host d) = Some (points corner, points corner) /\ Forall no_coordinates [Copy; SetGeographic true; Prepare; SetUse false; Copy].
Proof. eexists. split; [reflexivity|]. split; [reflexivity|]. repeat constructor. Qed.

(** Refuted in general: whatever coordinates are set after the first preparation, and however often it is repeated, the device works with
    the coordinates fp0, dp0 of the first one; only the number of points and the kind of distance are current. *)
Theorem C159_coordinates_refuted : forall geo before after d0 fp0 dp0, Forall host_only before -> Forall not_copy after ->
  run (dev_new geo) before = Ok d0 -> c_par (v_host d0) = Some (fp0, dp0) ->
  exists d, run (dev_new geo) (before ++ Prepare :: after) = Ok d /\
  forall f fp dp, c_par (v_host d) = Some (fp, dp) ->
  dev_distance d f = if Nat.ltb f (length fp) then
                       match nth_error fp0 f with
                       | None => UB
                       | Some o => if Nat.leb (length fp) (length dp0) then Ok (map (between (c_geo (v_host d)) o) (firstn (length fp) dp0)) else UB
                       end
                     else Throw.
Proof. exact stale_main. Qed.
Print Assumptions C159_coordinates_refuted.

(** A prediction after a fit: the distances used are those between data points, not those from the locations l; with more locations than data
    points memory outside of the arrays is read. *)
Theorem C159_predict_refuted : forall geo l c, m_cols c = 2%nat -> m_cols l = 2%nat -> exists d,
  run (dev_new geo) (fit_calls c ++ predict_calls l c) = Ok d /\
  ((m_rows l <= m_rows c)%nat -> forall f o p, nth_error (points c) f = Some o -> nth_error (points l) f = Some p ->
     dev_distance d f = Ok (map (between geo o) (firstn (m_rows l) (points c))) /\ host_distance d f = Ok (map (between geo p) (points c))) /\
  ((m_rows c < m_rows l)%nat -> forall f, (f < m_rows l)%nat -> dev_distance d f = UB).
Proof. exact predict_main. Qed.
Print Assumptions C159_predict_refuted.

(** A second fit with other coordinates: the bandwidth criteria, which copy the distance, use the new coordinates; the fit uses the old ones. *)
Theorem C159_refit_refuted : forall geo c1 c2, m_cols c1 = 2%nat -> m_cols c2 = 2%nat -> m_rows c1 = m_rows c2 -> exists d,
  run (dev_new geo) (fit_calls c1 ++ fit_calls c2) = Ok d /\
  forall f o1 o2, nth_error (points c1) f = Some o1 -> nth_error (points c2) f = Some o2 ->
  dev_distance d f = Ok (map (between geo o1) (points c1)) /\
  criterion_distance d f = Ok (map (between geo o2) (points c2)) /\ host_distance d f = Ok (map (between geo o2) (points c2)).
Proof. exact refit_main. Qed.
Print Assumptions C159_refit_refuted.
Example C159_refit_case : m_cols corner = 2%nat /\ nth_error (points corner) 1 = Some (3, 4) /\ between false (0, 0) (3, 4) <> between false (0, 0) (0, 0).
Proof. exact corner_case. Qed.

(** A copy of a prepared object without coordinates never computes a distance on the device, even after setting coordinates and preparing. *)
Theorem C159_copy_refuted : forall geo c after, m_cols c = 2%nat -> Forall not_copy after ->
  exists d, run (dev_new geo) (fit_calls c ++ MakeParameter [] :: Copy :: after) = Ok d /\ forall f, dev_distance d f = Throw.
Proof. exact lost_main. Qed.
Print Assumptions C159_copy_refuted.

(** A copy works on the device exactly when the flag was set in the original; a new object does not have it. *)
Theorem C159_copy_flag_partial : forall geo c, m_cols c = 2%nat ->
  (exists d, run (dev_new geo) [MakeParameter [PMat c; PMat c]; SetUse true; Copy] = Ok d /\
     forall f o, nth_error (points c) f = Some o -> dev_distance d f = Ok (map (between geo o) (points c))) /\
  (forall cs, cs = [] \/ cs = [SetUse true; SetUse false] -> exists d, run (dev_new geo) (MakeParameter [PMat c; PMat c] :: cs ++ [Copy]) = Ok d /\
     forall f, dev_distance d f = Throw).
Proof. exact flag_main. Qed.
Print Assumptions C159_copy_flag_partial.
Example C159_copy_flag_case : m_cols corner = 2%nat /\ nth_error (points corner) 1 = Some (3, 4).
Proof. exact (conj (proj1 corner_case) (proj1 (proj2 corner_case))). Qed.

(** Preparing an object without coordinates is undefined. *)
Theorem C159_unset_refuted : forall geo before d, Forall host_only before -> run (dev_new geo) before = Ok d -> c_par (v_host d) = None ->
  run (dev_new geo) (before ++ [Prepare]) = UB.
Proof. exact null_main. Qed.
Print Assumptions C159_unset_refuted.
Example C159_unset_case : exists d, run (dev_new true) [MakeParameter [PUword 3]; SetUse true] = Ok d /\ c_par (v_host d) = None.
Proof. eexists. split; reflexivity. Qed.

(** On the device all Minkowski distances are planar: with the exponent of the Manhattan distance the host gives 7, the device 5, for any
    exponent and angle. *)
Theorem C159_minkowski_refuted : exists d, run (dev_new false) (fit_calls corner) = Ok d /\
  mink_distance_host (-1) 0 d 0 = Ok [XF 0; XF 7] /\ forall poly theta, mink_distance_dev poly theta d 0 = Ok [XF 0; XF 5].
Proof. exact mink_main. Qed.
Print Assumptions C159_minkowski_refuted.
