(** Model of the search interval used by multiscale GWR (stdlib reals).
    Source: GWRMultiscale.cpp:143-148 (mMaxDistances and mMinDistances zero-filled by resize),
    207-208 (set in the initial selection, only for variables of type Null), 215-216 and
    327-329 (bounds given to the selector). *)
From Coq Require Import Reals Bool.
From Verif Require Import GoldModel.
Local Open Scope R_scope.

Inductive bw_init := BNull | BInitial | BSpecified.
(** (mMinDistances[i], mMaxDistances[i]) when backfitting starts *)
Definition dist_record (init : bw_init) (dmin dmax : R) : R * R :=
  match init with BNull => (dmin, dmax) | _ => (0, 0) end.
Definition value_or (o : option R) (d : R) : R := match o with Some v => v | None => d end.
(** Bounds of the search in backfitting; [n] is the number of points. *)
Definition search_bounds (golden_lo golden_hi : option R) (adaptive : bool) (adaptive_lower n : R)
    (init : bw_init) (dmin dmax : R) : R * R :=
  let r := dist_record init dmin dmax in
  (value_or golden_lo (if adaptive then adaptive_lower else fst r),
   value_or golden_hi (if adaptive then n else snd r)).
(** The search of backfitting for one variable *)
Definition backfit_search crit (w : weight) golden_lo golden_hi adaptive_lower n init dmin dmax : report :=
  let b := search_bounds golden_lo golden_hi (wadaptive w) adaptive_lower n init dmin dmax in
  optimize crit w (fst b) (snd b) nil.
