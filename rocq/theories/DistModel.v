(** Model of the distance classes (include/src gwmodelpp/spatialweight). *)
From Coq Require Import Reals Bool List ZArith.
From Verif Require Import Outcome XReal.
Import ListNotations.
Local Open Scope R_scope.

(** An arma::mat argument: its shape and its entries.  Entries are finite. *)
Record dmat : Type := mkMat { m_rows : nat; m_cols : nat; m_at : nat -> nat -> R }.

(** Distance.h:19, DistParamVariant = variant<mat, vec, uword>. *)
Inductive dparam : Type := PMat (m : dmat) | PVec (v : list R) | PUword (n : nat).

(** std::get<T>(variant): throws std::bad_variant_access on another alternative. *)
Definition get_mat (p : dparam) : outcome dmat :=
  match p with PMat m => Ok m | _ => Throw end.
Definition get_vec (p : dparam) : outcome (list R) :=
  match p with PVec v => Ok v | _ => Throw end.
Definition get_uword (p : dparam) : outcome nat :=
  match p with PUword n => Ok n | _ => Throw end.

Definition point : Type := (R * R)%type.

(** Rows of a two-column matrix as points (columns 0 and 1). *)
Definition points (m : dmat) : list point :=
  map (fun i => (m_at m i 0, m_at m i 1)) (seq 0 (m_rows m)).

(** CRSDistance.h:96-100, EuclideanDistance: sqrt(sum(diff % diff, 1)) with
    diff = in_locs.each_row() - out_loc. *)
Definition euclid (o p : point) : R :=
  sqrt ((fst p - fst o) * (fst p - fst o) + (snd p - snd o) * (snd p - snd o)).
Definition EuclideanDistance (o : point) (ps : list point) : list xd :=
  map (fun p => XF (euclid o p)) ps.

(** src/CMakeLists.txt:46: DOUBLE_EPS = 1e-8. *)
Definition DOUBLE_EPS : R := / 10 ^ 8.

(** CRSDistance.cpp:15-69, SpGcdist.  Simplification: M_PI is the real PI and
    sin, cos, sqrt, atan are exact. *)
Section SpGcdist.
Variables lon1 lon2 lat1 lat2 : R.
Definition gc_de2ra : R := PI / 180.
Definition gc_a : R := 6378137 / 1000.
Definition gc_f : R := / (298257223563 / 10 ^ 9).
Definition gc_F : R := (lat1 * gc_de2ra + lat2 * gc_de2ra) / 2.
Definition gc_G : R := (lat1 * gc_de2ra - lat2 * gc_de2ra) / 2.
Definition gc_L : R := (lon1 * gc_de2ra - lon2 * gc_de2ra) / 2.
Definition gc_S : R :=
  sin gc_G ^ 2 * cos gc_L ^ 2 + cos gc_F ^ 2 * sin gc_L ^ 2.
Definition gc_C : R :=
  cos gc_G ^ 2 * cos gc_L ^ 2 + sin gc_F ^ 2 * sin gc_L ^ 2.
(** Lines 26-37: the two early exits returning 0. *)
Definition gc_shortcut : bool :=
  Rltb (Rabs (lat1 - lat2)) DOUBLE_EPS &&
  (Rltb (Rabs (lon1 - lon2)) DOUBLE_EPS ||
   Rltb (Rabs ((Rabs lon1 + Rabs lon2) - 360)) DOUBLE_EPS).
(** Lines 61-68. *)
Definition gc_formula : xd :=
  let w := xatan (xsqrt (xdiv (XF gc_S) (XF gc_C))) in
  let r := xdiv (xsqrt (XF (gc_S * gc_C))) w in
  let d := xmul (xmul (XF 2) w) (XF gc_a) in
  let h1 := xdiv (xsub (xmul (XF 3) r) (XF 1)) (XF (2 * gc_C)) in
  let h2 := xdiv (xadd (xmul (XF 3) r) (XF 1)) (XF (2 * gc_S)) in
  xmul d
    (xsub (xadd (XF 1)
             (xmul (xmul (xmul (XF gc_f) h1) (XF (sin gc_F ^ 2))) (XF (cos gc_G ^ 2))))
          (xmul (xmul (xmul (XF gc_f) h2) (XF (cos gc_F ^ 2))) (XF (sin gc_G ^ 2)))).
Definition SpGcdist : xd := if gc_shortcut then XF 0 else gc_formula.
End SpGcdist.

(** CRSDistance.cpp:71-81, SpatialDistance: SpGcdist(in_x, out_x, in_y, out_y). *)
Definition SpatialDistance (o : point) (ps : list point) : list xd :=
  map (fun p => SpGcdist (fst p) (fst o) (snd p) (snd o)) ps.

(** ** CRSDistance objects (CRSDistance.h:18-224) *)
Inductive calc : Type := CalcEuclid | CalcSpatial.
Record crs : Type := mkCrs {
  c_geo : bool;                              (* mGeographic *)
  c_calc : calc;                             (* mCalculator *)
  c_par : option (list point * list point)   (* mParameter: focus, data *)
}.

(** CRSDistance.h:126 and 216 (default constructor, default member initialiser). *)
Definition crs_default : crs := mkCrs false CalcEuclid None.
(** CRSDistance.h:133-139. *)
Definition crs_new (geo : bool) : crs :=
  mkCrs geo (if geo then CalcSpatial else CalcEuclid) None.
(** CRSDistance.h:175-182. *)
Definition crs_setGeographic (c : crs) (geo : bool) : crs :=
  mkCrs geo (if geo then CalcSpatial else CalcEuclid) (c_par c).
(** CRSDistance.cpp:83-100 (copy constructor; clone() h:152-155): the base is
    default-initialised, then setGeographic and a deep copy of the parameter. *)
Definition crs_copy (c : crs) : crs :=
  let d := crs_setGeographic crs_default (c_geo c) in
  match c_par c with
  | Some fd => mkCrs (c_geo d) (c_calc d) (Some fd)
  | None => d
  end.
(** CRSDistance.cpp:102-121.  The first component is the object afterwards (also
    when the call throws), the second the outcome. *)
Definition crs_makeParameter (c : crs) (pl : list dparam) : crs * outcome unit :=
  match pl with
  | [a; b] =>
      match get_mat a, get_mat b with
      | Ok fp, Ok dp =>
          if (Nat.eqb (m_cols fp) 2 && Nat.eqb (m_cols dp) 2)%bool
          then (mkCrs (c_geo c) (c_calc c) (Some (points fp, points dp)), Ok tt)
          else (mkCrs (c_geo c) (c_calc c) None, Throw)
      | _, _ => (c, Throw)
      end
  | _ => (mkCrs (c_geo c) (c_calc c) None, Throw)
  end.

Definition calc_fn (k : calc) : point -> list point -> list xd :=
  match k with CalcEuclid => EuclideanDistance | CalcSpatial => SpatialDistance end.

(** CRSDistance.cpp:123-132 (total = fp.n_rows, CRSDistance.h:58). *)
Definition crs_distance (c : crs) (focus : nat) : outcome (list xd) :=
  match c_par c with
  | None => Throw
  | Some (fp, dp) =>
      match nth_error fp focus with
      | Some o => Ok (calc_fn (c_calc c) o dp)
      | None => Throw
      end
  end.

(** arma::max / arma::min of a vector: throw when empty; scan from -inf / +inf. *)
Definition vmax (l : list xd) : outcome xd :=
  match l with
  | [] => Throw
  | _ => Ok (fold_left (fun m x => if xltb m x then x else m) l (XI true))
  end.
Definition vmin (l : list xd) : outcome xd :=
  match l with
  | [] => Throw
  | _ => Ok (fold_left (fun m x => if xltb x m then x else m) l (XI false))
  end.

(** The loops of CRSDistance.cpp:137-143 / 149-155 and OneDimDistance.cpp:64-70 /
    76-82: fold over the distance vectors of all focus points. *)
Fixpoint max_loop (rows : list (list xd)) (acc : xd) : outcome xd :=
  match rows with
  | [] => Ok acc
  | r :: rows' => let* d := vmax r in max_loop rows' (if xltb acc d then d else acc)
  end.
Fixpoint min_loop (rows : list (list xd)) (acc : xd) : outcome xd :=
  match rows with
  | [] => Ok acc
  | r :: rows' => let* d := vmin r in min_loop rows' (if xltb d acc then d else acc)
  end.

(** CRSDistance.cpp:134-144 and 146-156. *)
Definition crs_maxDistance (c : crs) : outcome xd :=
  match c_par c with
  | None => Throw
  | Some (fp, dp) => max_loop (map (fun o => calc_fn (c_calc c) o dp) fp) (XF 0)
  end.
Definition crs_minDistance (c : crs) : outcome xd :=
  match c_par c with
  | None => Throw
  | Some (fp, dp) => min_loop (map (fun o => calc_fn (c_calc c) o dp) fp) (XF DBL_MAX)
  end.

(** CRSDistance.cpp:171-183 (ENABLE_CUDA): the number of computed distances is
    [total], the number of focus points; the kernel (CRSDistanceKernel.cu:42-57,
    151-165) reads that many data points from device memory, unchecked.  The
    device copies are assumed current; DevDistModel.v treats them over several calls. *)
Definition crs_distance_cuda (c : crs) (focus : nat) : outcome (list xd) :=
  match c_par c with
  | None => Throw
  | Some (fp, dp) =>
      match nth_error fp focus with
      | Some o =>
          if (length fp <=? length dp)%nat
          then Ok (calc_fn (c_calc c) o (firstn (length fp) dp))
          else UB
      | None => Throw
      end
  end.

(** ** MinkwoskiDistance objects *)
Record mink : Type := mkMink { k_crs : crs; k_poly : R; k_theta : R }.
(** MinkwoskiDistance.h:56 and MinkwoskiDistance.cpp:8-12. *)
Definition mink_default : mink := mkMink crs_default 2 0.
Definition mink_new (p theta : R) : mink := mkMink (crs_new false) p theta.
(** MinkwoskiDistance.cpp:14-18. *)
Definition mink_copy (m : mink) : mink := mkMink (crs_copy (k_crs m)) (k_poly m) (k_theta m).
(** makeParameter, maxDistance, minDistance are inherited (MinkwoskiDistance.h:108-114). *)
Definition mink_makeParameter (m : mink) (pl : list dparam) : mink * outcome unit :=
  let (c, o) := crs_makeParameter (k_crs m) pl in (mkMink c (k_poly m) (k_theta m), o).
Definition mink_maxDistance (m : mink) : outcome xd := crs_maxDistance (k_crs m).
Definition mink_minDistance (m : mink) : outcome xd := crs_minDistance (k_crs m).

(** MinkwoskiDistance.cpp:20-27. *)
Definition rotate (theta : R) (p : point) : point :=
  (fst p * cos theta - snd p * sin theta, fst p * sin theta + snd p * cos theta).
(** MinkwoskiDistance.h:116-119. *)
Definition ChessDistance (o : point) (ps : list point) : list xd :=
  map (fun p => XF (Rmax (Rabs (fst p - fst o)) (Rabs (snd p - snd o)))) ps.
(** MinkwoskiDistance.h:121-124. *)
Definition ManhattonDist (o : point) (ps : list point) : list xd :=
  map (fun p => XF (Rabs (fst p - fst o) + Rabs (snd p - snd o))) ps.
(** MinkwoskiDistance.h:126-130: the n x 2 result of abs(...) is assigned to an
    arma::vec, which Armadillo rejects (std::logic_error, column-vector layout). *)
Definition MinkwoskiDist (o : point) (ps : list point) (p : R) : outcome (list xd) := Throw.

(** MinkwoskiDistance.cpp:29-51. *)
Definition mink_distance (m : mink) (focus : nat) : outcome (list xd) :=
  match c_par (k_crs m) with
  | None => Throw
  | Some (fp, dp) =>
      if c_geo (k_crs m) then crs_distance (k_crs m) focus
      else
        match nth_error fp focus with
        | None => Throw
        | Some o =>
            let rot := (negb (Reqb (k_poly m) 2) && negb (Reqb (k_theta m) 0))%bool in
            let dp' := if rot then map (rotate (k_theta m)) dp else dp in
            let o' := if rot then rotate (k_theta m) o else o in
            if Reqb (k_poly m) 1 then Ok (ChessDistance o' dp')
            else if Reqb (k_poly m) (-1) then Ok (ManhattonDist o' dp')
            else MinkwoskiDist o' dp' (k_poly m)
        end
  end.

(** ** OneDimDistance objects *)
Definition onedim : Type := option (list R * list R).   (* mParameter *)
Definition onedim_new : onedim := None.
(** OneDimDistance.cpp:16-19: the copy constructor does not copy mParameter
    (member initialiser nullptr, OneDimDistance.h:111). *)
Definition onedim_copy (o : onedim) : onedim := None.
(** OneDimDistance.cpp:21-34. *)
Definition onedim_makeParameter (o : onedim) (pl : list dparam) : onedim * outcome unit :=
  match pl with
  | [a; b] =>
      match get_vec a, get_vec b with
      | Ok fp, Ok dp => (Some (fp, dp), Ok tt)
      | _, _ => (o, Throw)
      end
  | _ => (None, Throw)
  end.
(** OneDimDistance.h:48-53, OneDimDistance.cpp:36-45. *)
Definition onedim_distance (o : onedim) (focus : nat) : outcome (list xd) :=
  match o with
  | None => Throw
  | Some (fp, dp) =>
      match nth_error fp focus with
      | Some x => Ok (map (fun d => XF (Rabs (d - x))) dp)
      | None => Throw
      end
  end.
(** OneDimDistance.cpp:47-58: signed focus - data. *)
Definition onedim_noAbs (o : onedim) (focus : nat) : outcome (list xd) :=
  match o with
  | None => Throw
  | Some (fp, dp) =>
      match nth_error fp focus with
      | Some x => Ok (map (fun d => XF (x - d)) dp)
      | None => Throw
      end
  end.
(** OneDimDistance.cpp:61-71 and 73-83. *)
Definition onedim_maxDistance (o : onedim) : outcome xd :=
  match o with
  | None => Throw
  | Some (fp, dp) =>
      max_loop (map (fun x => map (fun d => XF (Rabs (d - x))) dp) fp) (XF 0)
  end.
Definition onedim_minDistance (o : onedim) : outcome xd :=
  match o with
  | None => Throw
  | Some (fp, dp) =>
      min_loop (map (fun x => map (fun d => XF (Rabs (d - x))) dp) fp) (XF DBL_MAX)
  end.

(** ** CRSSTDistance objects.  Simplification: the spatial part is a CRSDistance
    (the class stores any Distance pointer). *)
Record crsst : Type := mkST {
  s_spatial : crs;           (* *mSpatialDistance *)
  s_temporal : onedim;       (* *mTemporalDistance *)
  s_lambda : R;
  s_angle : R;
  s_oblique : bool;          (* mCalculator = &ObliqueSTDistance *)
  s_par : option nat         (* mParameter->total *)
}.
(** CRSSTDistance.cpp:58-66: both parts are cloned; lambda is not validated. *)
Definition st_new (s : crs) (t : onedim) (lambda : R) : crsst :=
  mkST (crs_copy s) (onedim_copy t) lambda (PI / 2) false None.
(** CRSSTDistance.cpp:68-76. *)
Definition st_new_angle (s : crs) (t : onedim) (lambda angle : R) : crsst :=
  let a := atan (tan angle) in
  mkST (crs_copy s) (onedim_copy t) lambda a
       (negb (Rltb (Rabs (a - PI / 2)) (/ 10 ^ 15))) None.
(** CRSSTDistance.cpp:78-90. *)
Definition st_copy (d : crsst) : outcome crsst :=
  if (Rleb 0 (s_lambda d) && Rleb (s_lambda d) 1)%bool
  then Ok (mkST (crs_copy (s_spatial d)) (onedim_copy (s_temporal d)) (s_lambda d)
                (s_angle d) (s_oblique d) None)
  else Throw.
(** CRSSTDistance.h:122-129. *)
Definition st_setLambda (d : crsst) (l : R) : crsst * outcome unit :=
  if (Rleb 0 l && Rleb l 1)%bool
  then (mkST (s_spatial d) (s_temporal d) l (s_angle d) (s_oblique d) (s_par d), Ok tt)
  else (d, Throw).

(** CRSSTDistance.cpp:92-120. *)
Definition st_makeParameter (d : crsst) (pl : list dparam) : crsst * outcome unit :=
  let reset := mkST (s_spatial d) (s_temporal d) (s_lambda d) (s_angle d) (s_oblique d) None in
  match pl with
  | [a; b; c; e] =>
      match get_mat a, get_mat b, get_vec c, get_vec e with
      | Ok sfp, Ok sdp, Ok tfp, Ok tdp =>
          if (Nat.eqb (m_rows sfp) (m_rows sdp) && Nat.eqb (m_rows sdp) (length tfp)
              && Nat.eqb (length tfp) (length tdp))%bool
          then
            let (s', o1) := crs_makeParameter (s_spatial d) [PMat sfp; PMat sdp] in
            match o1 with
            | Ok _ =>
                let (t', o2) := onedim_makeParameter (s_temporal d) [PVec tfp; PVec tdp] in
                match o2 with
                | Ok _ => (mkST s' t' (s_lambda d) (s_angle d) (s_oblique d) (Some (m_rows sfp)), Ok tt)
                | _ => (mkST s' t' (s_lambda d) (s_angle d) (s_oblique d) (s_par d), Throw)
                end
            | _ => (mkST s' (s_temporal d) (s_lambda d) (s_angle d) (s_oblique d) (s_par d), Throw)
            end
          else (reset, Throw)
      | _, _, _, _ => (d, Throw)
      end
  | _ => (reset, Throw)
  end.

(** One component of the expressions CRSSTDistance.cpp:24-25 and 44-45. *)
Definition st_entry (oblique : bool) (lambda angle : R) (s t : xd) : xd :=
  if xltb t (XF 0) then XF (10 ^ 13)
  else
    let root := xmul (XF 2) (xsqrt (xmul (xmul (XF (lambda * (1 - lambda))) s) t)) in
    xadd (xadd (xmul (XF lambda) s) (xmul (XF (1 - lambda)) t))
         (if oblique then xmul root (XF (cos angle)) else root).

(** Elementwise vector operations throw on different lengths. *)
Fixpoint vzip (f : xd -> xd -> xd) (a b : list xd) : outcome (list xd) :=
  match a, b with
  | [], [] => Ok []
  | x :: a', y :: b' => let* r := vzip f a' b' in Ok (f x y :: r)
  | _, _ => Throw
  end.

(** CRSSTDistance.cpp:10-47 through CRSSTDistance.h:100-103. *)
Definition st_distance (d : crsst) (focus : nat) : outcome (list xd) :=
  let* sdist := crs_distance (s_spatial d) focus in
  let* tdist :=
    (if Rltb (Rabs (s_lambda d - 1)) (/ 10 ^ 16)
     then onedim_distance (s_temporal d) focus
     else onedim_noAbs (s_temporal d) focus) in
  vzip (st_entry (s_oblique d) (s_lambda d) (s_angle d)) sdist tdist.

(** CRSSTDistance.cpp:122-132 and 134-144. *)
Fixpoint st_rows (d : crsst) (n i : nat) : list (outcome (list xd)) :=
  match n with
  | O => []
  | S n' => st_distance d i :: st_rows d n' (S i)
  end.
Fixpoint omax_loop (rows : list (outcome (list xd))) (acc : xd) : outcome xd :=
  match rows with
  | [] => Ok acc
  | r :: rows' =>
      let* v := r in let* d := vmax v in omax_loop rows' (if xltb acc d then d else acc)
  end.
Definition st_maxDistance (d : crsst) : outcome xd :=
  match s_par d with
  | None => Throw
  | Some total => omax_loop (st_rows d total 0) (XF 0)
  end.

(** ** DMatDistance objects: rowSize is stored but unused. *)
Definition dmatd : Type := option (nat * nat).   (* mParameter: rowSize, total *)
(** DMatDistance.cpp:13-16 (parameter not copied). *)
Definition dmatd_copy (d : dmatd) : dmatd := None.
(** DMatDistance.cpp:18-27. *)
Definition dmatd_makeParameter (d : dmatd) (pl : list dparam) : dmatd * outcome unit :=
  match pl with
  | [a; b] =>
      match get_uword a, get_uword b with
      | Ok s, Ok r => (Some (s, r), Ok tt)
      | _, _ => (d, Throw)
      end
  | _ => (None, Ok tt)
  end.
(** DMatDistance.cpp:29-42. *)
Definition dmatd_distance (d : dmatd) (focus : nat) : outcome (list xd) :=
  match d with
  | None => Throw
  | Some (_, total) => if (total <=? focus)%nat then Throw else Ok []
  end.
(** DMatDistance.cpp:44-54. *)
Definition dmatd_maxDistance (d : dmatd) : outcome xd :=
  match d with None => Throw | Some _ => Ok (XF DBL_MAX) end.
Definition dmatd_minDistance (d : dmatd) : outcome xd :=
  match d with None => Throw | Some _ => Ok (XF 0) end.
