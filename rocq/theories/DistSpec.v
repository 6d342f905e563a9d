(** Specification vocabulary for the distance properties. *)
From Coq Require Import Reals Bool List ZArith.
From Verif Require Import Outcome XReal DistModel.
Import ListNotations.
Local Open Scope R_scope.

(** ** Call histories of a CRSDistance object. *)
Inductive crs_op : Type :=
| SetGeographic (geo : bool)
| MakeParameter (pl : list dparam)
| ReplaceByClone.

Definition crs_step (c : crs) (o : crs_op) : crs :=
  match o with
  | SetGeographic g => crs_setGeographic c g
  | MakeParameter pl => fst (crs_makeParameter c pl)
  | ReplaceByClone => crs_copy c
  end.
Definition crs_run (c : crs) (ops : list crs_op) : crs := fold_left crs_step ops c.

(** Arguments of the last makeParameter call of a history, if any. *)
Fixpoint last_param (ops : list crs_op) : option (list dparam) :=
  match ops with
  | [] => None
  | o :: ops' =>
      match last_param ops' with
      | Some p => Some p
      | None => match o with MakeParameter pl => Some pl | _ => None end
      end
  end.
(** Last value given to setGeographic. *)
Fixpoint last_geo (ops : list crs_op) (g0 : bool) : bool :=
  match ops with
  | [] => g0
  | SetGeographic g :: ops' => last_geo ops' g
  | _ :: ops' => last_geo ops' g0
  end.

(** All arguments of all makeParameter calls are matrices (any count, any shape). *)
Definition only_matrices (ops : list crs_op) : Prop :=
  forall pl, In (MakeParameter pl) ops -> Forall (fun p => exists m, p = PMat m) pl.

(** Argument list that describes focus points [fp] and data points [dp]. *)
Definition describes (pl : list dparam) (fp dp : list point) : Prop :=
  exists m1 m2, pl = [PMat m1; PMat m2] /\ m_cols m1 = 2%nat /\ m_cols m2 = 2%nat /\
    fp = points m1 /\ dp = points m2.

(** The distance between a focus point and a data point in either mode. *)
Definition crs_between (geo : bool) (focus p : point) : xd :=
  if geo then SpGcdist (fst p) (fst focus) (snd p) (snd focus)
  else XF (euclid focus p).

(** ** Extremes *)
(** [m] bounds all entries of all rows and occurs in one of them. *)
Definition is_max (rows : list (list R)) (m : R) : Prop :=
  (forall r d, In r rows -> In d r -> d <= m) /\ (exists r, In r rows /\ In m r).
Definition is_min (rows : list (list R)) (m : R) : Prop :=
  (forall r d, In r rows -> In d r -> m <= d) /\ (exists r, In r rows /\ In m r).

(** ** Norms *)
Definition manhattan (o p : point) : R := Rabs (fst p - fst o) + Rabs (snd p - snd o).
Definition chebyshev (o p : point) : R := Rmax (Rabs (fst p - fst o)) (Rabs (snd p - snd o)).

(** ** Space-time distance *)
Definition st_formula (lambda s t : R) : R :=
  lambda * s + (1 - lambda) * t + 2 * sqrt (lambda * (1 - lambda) * s * t).
(** A sequence of setLambda calls (whether or not each of them throws). *)
Definition st_sets (d : crsst) (ls : list R) : crsst :=
  fold_left (fun d l => fst (st_setLambda d l)) ls d.

(** ** Building objects through the public API *)
(** A two-column matrix with the given rows. *)
Definition coords (ps : list point) : dmat :=
  mkMat (length ps) 2 (fun i j => match j with O => fst (nth i ps (0, 0)) | _ => snd (nth i ps (0, 0)) end).
(** CRSDistance(false) after makeParameter({focus, data}). *)
Definition planar (fp dp : list point) : crs :=
  fst (crs_makeParameter (crs_new false) [PMat (coords fp); PMat (coords dp)]).
(** CRSSTDistance over a fresh CRSDistance(false) and OneDimDistance, after
    makeParameter({focus, data, focus times, data times}). *)
Definition spacetime (lambda : R) (fp dp : list point) (tfp tdp : list R) : crsst :=
  fst (st_makeParameter (st_new (crs_new false) onedim_new lambda)
         [PMat (coords fp); PMat (coords dp); PVec tfp; PVec tdp]).
(** The query [o] succeeded and its [j]-th entry is the number [r]. *)
Definition entry (o : outcome (list xd)) (j : nat) (r : R) : Prop :=
  exists v x, o = Ok v /\ nth_error v j = Some x /\ xval x = Some r.
(** Rotation by [theta] followed by translation by [t]. *)
Definition move (theta : R) (t p : point) : point :=
  (fst p * cos theta - snd p * sin theta + fst t, fst p * sin theta + snd p * cos theta + snd t).

(** ** Great circles *)
Definition rad (deg : R) : R := deg * (PI / 180).
(** Spherical law of cosines. *)
Definition central_angle (lon1 lon2 lat1 lat2 theta : R) : Prop :=
  0 <= theta <= PI /\
  cos theta = sin (rad lat1) * sin (rad lat2) + cos (rad lat1) * cos (rad lat2) * cos (rad lon1 - rad lon2).
(** WGS84. *)
Definition equatorial_radius_km : R := 6378137 / 1000.
Definition flattening : R := 1 / (298257223563 / 10 ^ 9).
