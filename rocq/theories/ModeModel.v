(** Model of setParallelType and the setters it interacts with: which implementation
    every calculator pointer designates.
    Source: include/gwmodelpp/IParallelizable.h:15-24 (ParallelType);
    GWRBasic.cpp:1045-1130; GTWR.cpp:256-265, 471-494; GWDR.cpp:690-749;
    GWRGeneralized.cpp:933-957, 1056-1084; GWRRobust.cpp:315-335;
    GWRLocalCollinearity.cpp:112-138, 173-196; GWRMultiscale.cpp:1069-1106;
    GWSS.cpp:255-319; GWDA.cpp:446-466; parallelAbility and member initialisers in the
    headers (lines cited below).
    A pointer to a member function is [Some (kind, variant)]; a null pointer is [None].
    Only the enumerators of ParallelType are considered, not arbitrary integers. *)
From Coq Require Import Bool List NArith.
From Verif Require Import Outcome.
Import ListNotations.

(** IParallelizable.h:15-24 *)
Inductive ptype := SerialOnly | OpenMP | CUDA | MPI | MPI_Serial | MPI_MP | MPI_CUDA.
Definition code (t : ptype) : N :=
  match t with
  | SerialOnly => 1 | OpenMP => 2 | CUDA => 4 | MPI => 8
  | MPI_Serial => 9 | MPI_MP => 10 | MPI_CUDA => 12
  end%N.

(** Compile-time switches ENABLE_OPENMP, ENABLE_CUDA, ENABLE_MPI. *)
Record config := mkCfg { omp : bool; cuda : bool; mpi : bool }.

Inductive alg := Basic | Robust | Gtwr | Gwdr | Generalized | LocalCol | Multiscale | Gwss | Gwda.

Definition bitif (b : bool) (n : N) : N := if b then n else 0%N.
(** GWRBasic.h:684-702 (inherited by GWRRobust), GTWR.h:506, GWDR.h:340,
    GWRGeneralized.h:549, GWRLocalCollinearity.h:341 (unconditional), GWRMultiscale.h:601,
    GWSS.h:302, GWDA.h:353.  The MPI bit is never part of it. *)
Definition ability (a : alg) (c : config) : N :=
  match a with
  | Basic | Robust | Multiscale => N.lor 1 (N.lor (bitif (omp c) 2) (bitif (cuda c) 4))
  | LocalCol => N.lor 1 2
  | _ => N.lor 1 (bitif (omp c) 2)
  end.
(** "if (type & parallelAbility())" *)
Definition accepts (a : alg) (c : config) (t : ptype) : bool :=
  negb (N.eqb (N.land (code t) (ability a c)) 0).

Inductive kind := KSerial | KOmp | KCuda | KBase | KMpi.
Inductive criterion := AIC | CV.
Inductive family := Poisson | Binomial.
Inductive gwssmode := Average | Correlation.
Inductive variant := Plain | Crit (c : criterion) | Fam (f : family) | Mode (m : gwssmode).
Notation pointer := (option (kind * variant)) (only parsing).

(** All calculator pointers; an algorithm uses some of them. *)
Record pointers := mkPtr {
  p_fit : pointer;       (* mFitCoreFunction / mFitFunction / mfitFunction / mGGWRfitFunction /
                            mFitVarCore / mSummaryFunction / mDiscriminantAnalysisFunction *)
  p_predict : pointer;   (* mPredictFunction *)
  p_cv : pointer;        (* mFitCoreCVFunction / mFitVarCoreCV *)
  p_shat : pointer;      (* mFitCoreSHatFunction / mFitVarCoreSHat *)
  p_outer : pointer;     (* GWRBasic::mFitFunction / mFitVar *)
  p_indep : pointer;     (* mIndepVarsSelectionCriterionFunction / mIndepVarCriterionFunction *)
  p_crit : pointer;      (* bandwidth criterion *)
  p_wt : pointer;        (* mCalWtFunction *)
  p_base : pointer       (* GWRRobust only: the inherited GWRBasic core mFitCoreCVFunction used
                            by bandwidth selection *)
}.
Record state := mkS {
  ty : ptype;
  crit : criterion;
  fam : option family;   (* GWRGeneralized::mFamily is not initialised (GWRGeneralized.h:417) *)
  mode : gwssmode;
  ptr : pointers
}.

(** Member initialisers: GWRBasic.h:739-759, GTWR.h:623-631, GWDR.h:496-515,
    GWRGeneralized.h:442-451, GWRRobust.h:136, GWRLocalCollinearity.h:274-334,
    GWRMultiscale.h:766-811, GWSS.h:377-380, GWDA.h:414-416. *)
Definition init (a : alg) : state :=
  let s := Some (KSerial, Plain) in
  match a with
  | Basic => mkS SerialOnly AIC None Average
      (mkPtr s s s s (Some (KBase, Plain)) (Some (KBase, Plain)) (Some (KBase, Crit CV)) None None)
  | Robust => mkS SerialOnly AIC None Average
      (mkPtr s None None None None None None None s)
  | Gtwr => mkS SerialOnly AIC None Average
      (mkPtr s s None None None None (Some (KSerial, Crit CV)) None None)
  | Gwdr => mkS SerialOnly CV None Average
      (mkPtr s s None None None s (Some (KSerial, Crit CV)) None None)
  | Generalized => mkS SerialOnly AIC None Average
      (mkPtr (Some (KSerial, Fam Poisson)) None None None None None
         (Some (KSerial, Crit CV)) (Some (KSerial, Fam Poisson)) None)
  | LocalCol => mkS SerialOnly CV None Average
      (mkPtr s s None None None None (Some (KSerial, Crit CV)) None None)
  | Multiscale => mkS SerialOnly CV None Average
      (mkPtr s None s s (Some (KBase, Plain)) None None None None)
  | Gwss => mkS SerialOnly CV None Average
      (mkPtr (Some (KSerial, Mode Average)) None None None None None None None None)
  | Gwda => mkS SerialOnly CV None Average
      (mkPtr s None None None None None None None None)
  end.

(** The switch of GWRBasic::setParallelType (1082-1112); a case that is not compiled
    falls to the default. *)
Definition basic_core (c : config) (t : ptype) : kind :=
  match t with
  | SerialOnly | MPI_Serial => KSerial
  | OpenMP | MPI_MP => if omp c then KOmp else KSerial
  | CUDA | MPI_CUDA => if cuda c then KCuda else KSerial
  | MPI => KSerial
  end.
(** The switches of the other algorithms know SerialOnly and OpenMP (and CUDA). *)
Definition simple_core (c : config) (t : ptype) : kind :=
  match t with OpenMP => if omp c then KOmp else KSerial | _ => KSerial end.
Definition multi_core (c : config) (t : ptype) : kind :=
  match t with
  | OpenMP => if omp c then KOmp else KSerial
  | CUDA => if cuda c then KCuda else KSerial
  | _ => KSerial
  end.
(** "type & ParallelType::MPI" *)
Definition mpi_bit (t : ptype) : bool := negb (N.eqb (N.land (code t) 8) 0).
Definition outer_kind (c : config) (t : ptype) : kind :=
  if mpi c && mpi_bit t then KMpi else KBase.

(** Lookup in the maps of GWRGeneralized; operator[] on a missing key gives null. *)
Definition map_kind (c : config) (t : ptype) : option kind :=
  match t with
  | SerialOnly => Some KSerial
  | OpenMP => if omp c then Some KOmp else None
  | _ => None
  end.
Definition lookup (k : option kind) (v : variant) : pointer :=
  match k with Some k => Some (k, v) | None => None end.

(** setBandwidthSelectionCriterion / setBandwidthCriterionType /
    setBandwidthSelectionCriterionType. *)
Definition crit_ptr (a : alg) (c : config) (t : ptype) (k : criterion) : pointer :=
  match a with
  | Basic => Some (outer_kind c t, Crit k)                     (* GWRBasic.cpp:1045-1076 *)
  | Gtwr => Some (KSerial, Crit k)                             (* GTWR.cpp:256-265 *)
  | Gwdr => Some (simple_core c t, Crit k)                     (* GWDR.cpp:690-721 *)
  | Generalized => lookup (map_kind c t) (Crit k)              (* GWRGeneralized.cpp:933-947 *)
  | LocalCol => Some (simple_core c t, Crit k)                 (* GWRLocalCollinearity.cpp:112-138 *)
  | _ => None
  end.
Definition with_crit (p : pointers) (q : pointer) : pointers :=
  mkPtr (p_fit p) (p_predict p) (p_cv p) (p_shat p) (p_outer p) (p_indep p) q (p_wt p) (p_base p).
(** The criterion enumeration of GWRLocalCollinearity has only CV; the criterion setters
    of the remaining algorithms are not part of this model. *)
Definition has_crit (a : alg) (k : criterion) : bool :=
  match a with
  | Basic | Gtwr | Gwdr | Generalized => true
  | LocalCol => match k with CV => true | AIC => false end
  | _ => false
  end.
Definition set_crit (a : alg) (c : config) (k : criterion) (s : state) : state :=
  if has_crit a k then mkS (ty s) k (fam s) (mode s) (with_crit (ptr s) (crit_ptr a c (ty s) k)) else s.

(** GWRGeneralized::setFamily 1056-1084 *)
Definition set_family (c : config) (f : family) (s : state) : state :=
  let q := lookup (map_kind c (ty s)) (Fam f) in
  let p := ptr s in
  mkS (ty s) (crit s) (Some f) (mode s)
    (mkPtr q (p_predict p) (p_cv p) (p_shat p) (p_outer p) (p_indep p) (p_crit p) q (p_base p)).
(** GWSS::setGWSSMode 264-268 and updateCalculator 270-319 *)
Definition set_mode (c : config) (m : gwssmode) (s : state) : state :=
  let p := ptr s in
  mkS (ty s) (crit s) (fam s) m
    (mkPtr (Some (simple_core c (ty s), Mode m)) (p_predict p) (p_cv p) (p_shat p) (p_outer p)
       (p_indep p) (p_crit p) (p_wt p) (p_base p)).

Definition retype (t : ptype) (p : pointers) (s : state) : state :=
  mkS t (crit s) (fam s) (mode s) p.

(** setParallelType of every algorithm.  [UB]: GWRGeneralized reads mFamily before it
    has been set. *)
Definition set_type (a : alg) (c : config) (t : ptype) (s : state) : outcome state :=
  let p := ptr s in
  match a with
  | Basic =>
      if accepts a c t then
        let k := Some (basic_core c t, Plain) in
        let o := if mpi c then Some (outer_kind c t, Plain) else p_outer p in
        let i := if mpi c then Some (outer_kind c t, Plain) else p_indep p in
        Ok (set_crit a c (crit s) (retype t (mkPtr k k k k o i (p_crit p) (p_wt p) (p_base p)) s))
      else Ok s
  | Robust =>
      if accepts a c t then
        Ok (retype t (mkPtr (Some (simple_core c t, Plain)) (p_predict p) (p_cv p) (p_shat p)
                        (p_outer p) (p_indep p) (p_crit p) (p_wt p) (p_base p)) s)
      else Ok s
  | Gtwr =>
      if accepts a c t then
        let k := Some (simple_core c t, Plain) in
        Ok (set_crit a c (crit s) (retype t (mkPtr k k (p_cv p) (p_shat p)
              (p_outer p) (p_indep p) (p_crit p) (p_wt p) (p_base p)) s))
      else Ok s
  | Gwdr =>
      Ok (set_crit a c (crit s)
            (if accepts a c t then
               let k := Some (simple_core c t, Plain) in
               retype t (mkPtr k k (p_cv p) (p_shat p) (p_outer p) k (p_crit p) (p_wt p) (p_base p)) s
             else s))
  | LocalCol =>
      Ok (set_crit a c (crit s)
            (if accepts a c t then
               let k := Some (simple_core c t, Plain) in
               retype t (mkPtr k k (p_cv p) (p_shat p) (p_outer p) (p_indep p) (p_crit p) (p_wt p) (p_base p)) s
             else s))
  | Generalized =>
      if accepts a c t then
        match fam s with
        | Some f => Ok (set_family c f (set_crit a c (crit s) (retype t p s)))
        | None => UB
        end
      else Ok s
  | Multiscale =>
      if accepts a c t then
        let k := Some (multi_core c t, Plain) in
        let o := if mpi c then Some (outer_kind c t, Plain) else p_outer p in
        Ok (retype t (mkPtr k (p_predict p) k k o (p_indep p) (p_crit p) (p_wt p) (p_base p)) s)
      else Ok s
  | Gwss =>
      if accepts a c t then Ok (set_mode c (mode s) (retype t p s)) else Ok s
  | Gwda =>
      if accepts a c t then
        Ok (retype t (mkPtr (Some (simple_core c t, Plain)) (p_predict p) (p_cv p) (p_shat p)
                        (p_outer p) (p_indep p) (p_crit p) (p_wt p) (p_base p)) s)
      else Ok s
  end.

Inductive call := SetType (t : ptype) | SetCrit (k : criterion) | SetFamily (f : family) | SetMode (m : gwssmode).
(** Calls a class does not have do nothing. *)
Definition exec (a : alg) (c : config) (x : call) (s : state) : outcome state :=
  match x with
  | SetType t => set_type a c t s
  | SetCrit k => Ok (set_crit a c k s)
  | SetFamily f => match a with Generalized => Ok (set_family c f s) | _ => Ok s end
  | SetMode m => match a with Gwss => Ok (set_mode c m s) | _ => Ok s end
  end.
Fixpoint exec_all (a : alg) (c : config) (l : list call) (s : state) : outcome state :=
  match l with
  | [] => Ok s
  | x :: t => match exec a c x s with Ok s' => exec_all a c t s' | Throw => Throw | UB => UB end
  end.
(** A freshly constructed object after the calls [l]. *)
Definition after (a : alg) (c : config) (l : list call) : outcome state := exec_all a c l (init a).
