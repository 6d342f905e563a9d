(** Distance objects with their copies of the coordinates on the device, over several calls.
    Source: CRSDistance.cpp:83-100 (copy), 102-121 (makeParameter), 158-184 (prepareCuda, distance on the device); CRSDistance.h:133-139,
    175-182 (setGeographic), 218-222 (members); Distance.cpp:19-32, Distance.h:108-124 (flags, default of the device function), 144-149;
    MinkwoskiDistance.cpp:8-18 (no device function of its own); cuda/CRSDistanceKernel.cu:42-57, 95-167; SpatialMonoscaleAlgorithm.cpp:5-12,
    GWRBasic.cpp:104-108, 173-183 (fit and predict).
    Distance has no copy constructor of its own: all flags are copied.  Not modelled: failing CUDA calls (checkCudaErrors); the device number;
    allocations of size 0. *)
From Coq Require Import Reals Bool List Arith.
From Verif Require Import Outcome XReal DistModel.
Import ListNotations.
Local Open Scope R_scope.

(** The object: host part (mGeographic, mCalculator, mParameter), mCalculatorCuda, mCudaFp and mCudaDp ([None]: null), mUseCuda,
    mCudaPrepared, and whether mCudaThreads is positive. *)
Record dev := mkDev { v_host : crs; v_calc : calc; v_mem : option (list point * list point); v_use : bool; v_prepared : bool; v_threads : bool }.

(** CRSDistance(bool) *)
Definition dev_new (geo : bool) : dev := mkDev (crs_new geo) (if geo then CalcSpatial else CalcEuclid) None false false false.
(** 175-182 *)
Definition dev_setGeographic (d : dev) (geo : bool) : dev :=
  mkDev (crs_setGeographic (v_host d) geo) (if geo then CalcSpatial else CalcEuclid) (v_mem d) (v_use d) (v_prepared d) (v_threads d).
(** Distance.h:112 *)
Definition dev_setUse (d : dev) (b : bool) : dev := mkDev (v_host d) (v_calc d) (v_mem d) b (v_prepared d) (v_threads d).
(** 102-121: the flags and the device memory are left alone. *)
Definition dev_makeParameter (d : dev) (pl : list dparam) : dev * outcome unit :=
  let (h, o) := crs_makeParameter (v_host d) pl in (mkDev h (v_calc d) (v_mem d) (v_use d) (v_prepared d) (v_threads d), o).
(** 159-169 with Distance.cpp:20-31: dereferences mParameter. *)
Definition dev_prepare (d : dev) : outcome dev :=
  if v_prepared d then Ok (mkDev (v_host d) (v_calc d) (v_mem d) true true (v_threads d))
  else match c_par (v_host d) with
       | None => UB
       | Some m => Ok (mkDev (v_host d) (v_calc d) (Some m) true true true)
       end.
(** 83-100; cumat members start empty. *)
Definition dev_copy (d : dev) : outcome dev :=
  let k := if c_geo (v_host d) then CalcSpatial else CalcEuclid in
  match c_par (v_host d) with
  | None => Ok (mkDev (crs_copy (v_host d)) k None (v_use d) (v_prepared d) (v_threads d))
  | Some _ =>
      let e := mkDev (crs_copy (v_host d)) k None (v_use d) false (v_threads d) in
      if v_use d then dev_prepare e else Ok e
  end.

(** The kernels: hypot(ix - ox, iy - oy); sp_gcdist is the text of SpGcdist. *)
Definition dev_fn (k : calc) (o : point) (ps : list point) : list xd :=
  match k with
  | CalcEuclid => map (fun p => XF (sqrt ((fst p - fst o) ^ 2 + (snd p - snd o) ^ 2))) ps
  | CalcSpatial => map (fun p => SpGcdist (fst p) (fst o) (snd p) (snd o)) ps
  end.
(** 171-183: reads one point of mCudaFp and mParameter->total points of mCudaDp. *)
Definition dev_distance (d : dev) (focus : nat) : outcome (list xd) :=
  match c_par (v_host d) with
  | None => Throw
  | Some (fp, _) =>
      if negb (v_prepared d) then Throw
      else match v_mem d with
           | None => Throw
           | Some (mfp, mdp) =>
               if negb (v_threads d) then Throw
               else if Nat.ltb focus (length fp) then
                 match nth_error mfp focus with
                 | None => UB
                 | Some o => if Nat.leb (length fp) (length mdp) then Ok (dev_fn (v_calc d) o (firstn (length fp) mdp)) else UB
                 end
               else Throw
           end
  end.
(** 123-132 *)
Definition host_distance (d : dev) (focus : nat) : outcome (list xd) := crs_distance (v_host d) focus.

(** ** Sequences of calls; a call that throws leaves the object usable; [Copy]: from here on the copy is used. *)
Inductive call := MakeParameter (pl : list dparam) | SetGeographic (g : bool) | SetUse (b : bool) | Prepare | Copy.
Definition step (d : dev) (c : call) : outcome dev :=
  match c with
  | MakeParameter pl => Ok (fst (dev_makeParameter d pl))
  | SetGeographic g => Ok (dev_setGeographic d g)
  | SetUse b => Ok (dev_setUse d b)
  | Prepare => dev_prepare d
  | Copy => dev_copy d
  end.
Fixpoint run (d : dev) (cs : list call) : outcome dev :=
  match cs with [] => Ok d | c :: t => let* d' := step d c in run d' t end.

(** What fit does to the distance (createDistanceParameter, prepareCuda), and predict. *)
Definition fit_calls (coords : dmat) : list call := [MakeParameter [PMat coords; PMat coords]; Prepare].
Definition predict_calls (locations coords : dmat) : list call := [MakeParameter [PMat locations; PMat coords]; Prepare].
(** A bandwidth criterion: SpatialWeight sw(bandwidthWeight, mSpatialWeight.distance()) (GWRBasic.cpp:351, 375) copies the distance. *)
Definition criterion_distance (d : dev) (focus : nat) : outcome (list xd) := let* e := dev_copy d in dev_distance e focus.

(** MinkwoskiDistance on the device: the function of CRSDistance, with mPoly and mTheta unused. *)
Definition mink_distance_dev (poly theta : R) (d : dev) (focus : nat) : outcome (list xd) := dev_distance d focus.
Definition mink_distance_host (poly theta : R) (d : dev) (focus : nat) : outcome (list xd) := mink_distance (mkMink (v_host d) poly theta) focus.
