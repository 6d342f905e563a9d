(** Model of the task object of the CUDA library.
    Source: include/gwmodelcuda/GWRBasicGpuTask.h:11-251, src/gwmodelcuda/GWRBasicGpuTask.cpp, include/gwmodelpp/RegressionDiagnostic.h.
    Modelled: the coordinates and how they are set, the distance and weight objects and who deletes them, copying, the calls of
    fit and predict and what becomes of their results.  The regression itself is an outcome of [Res] and [Diag] values
    ([run], an argument of [fit]); data matrix, response and options are left out.  The heap is the list of distance and weight
    objects ever made, [false] once deleted. *)
From Coq Require Import Reals Bool List Arith ZArith.
From Verif Require Import Outcome.
Import ListNotations.
Local Open Scope R_scope.

Inductive dkind := CRS | Minkwoski.
(** Distance::DistanceType (Distance.h:50-57): 0 and 1 are supported. *)
Definition made (type : nat) : option dkind := match type with 0%nat => Some CRS | 1%nat => Some Minkwoski | _ => None end.

(** Conversion of a double to an index of type uword (64 bits): towards zero; undefined outside the range of the type. *)
Definition to_index (u : R) : outcome nat :=
  if Rle_dec u (-1) then UB
  else if Rle_dec (IZR (2 ^ 64)) u then UB
  else if Rlt_dec u 0 then Ok 0%nat else Ok (Z.to_nat (Int_part u)).

(** setCoords (138-141), setPredictLocations (143-146): [mCoords(i, u) = v] on an n x 2 matrix; an index out of bounds throws. *)
Fixpoint put_coord (l : list (R * R)) (i c : nat) (v : R) : outcome (list (R * R)) :=
  match l, i with
  | [], _ => Throw
  | (a, b) :: t, O => match c with 0%nat => Ok ((v, b) :: t) | 1%nat => Ok ((a, v) :: t) | _ => Throw end
  | p :: t, S j => let* t' := put_coord t j c v in Ok (p :: t')
  end.
Definition setCoords (l : list (R * R)) (i : nat) (u v : R) : outcome (list (R * R)) :=
  let* c := to_index u in put_coord l i c v.

Section Task.
Variables Res Diag : Type.

(** [t_dist]: address and kind of the distance object, if any; [t_weight]: address of the weight object. *)
Record task := mkTask { t_coords : list (R * R); t_dist : option (nat * dkind); t_weight : nat;
                        t_res : Res; t_diag : Diag; t_bandwidth : R }.

(** Constructors (40-75): coordinates zero; results empty. *)
Definition create (n type : nat) (r0 : Res) (d0 : Diag) (h : list bool) : list bool * task :=
  match made type with
  | Some k => (h ++ [true; true], mkTask (repeat (0, 0) n) (Some (length h, k)) (S (length h)) r0 d0 0)
  | None => (h ++ [true], mkTask (repeat (0, 0) n) None (length h) r0 d0 0)
  end.
(** Copy constructor (77-97): mDiagnostic keeps its default [d0]; a null mDistance is dereferenced. *)
Definition copy (d0 : Diag) (h : list bool) (s : task) : outcome (list bool * task) :=
  match t_dist s with
  | Some (a, k) =>
      if nth a h false && nth (t_weight s) h false
      then Ok (h ++ [true; true], mkTask (t_coords s) (Some (length h, k)) (S (length h)) (t_res s) d0 (t_bandwidth s))
      else UB
  | None => UB
  end.
(** Assignment (105-126): mDiagnostic is not assigned, the old distance and weight are not deleted. *)
Definition assign (h : list bool) (l s : task) : outcome (list bool * task) :=
  match t_dist s with
  | Some (a, k) =>
      if nth a h false && nth (t_weight s) h false
      then Ok (h ++ [true; true], mkTask (t_coords s) (Some (length h, k)) (S (length h)) (t_res s) (t_diag l) (t_bandwidth s))
      else UB
  | None => UB
  end.
(** setDistanceType (148-160). *)
Definition setDistanceType (h : list bool) (s : task) (type : nat) : list bool * task :=
  match made type with
  | Some k => (h ++ [true], mkTask (t_coords s) (Some (length h, k)) (t_weight s) (t_res s) (t_diag s) (t_bandwidth s))
  | None => (h, s)
  end.
(** setMinkwoskiDistancePoly, setMinkwoskiDistanceTheta (167-175): unchecked cast to MinkwoskiDistance;
    setCRSDistanceGergraphic (162-165): to its base CRSDistance. *)
Definition setMinkwoski (s : task) : outcome unit := match t_dist s with Some (_, Minkwoski) => Ok tt | _ => UB end.
Definition setGeographic (s : task) : outcome unit := match t_dist s with Some _ => Ok tt | None => UB end.

(** Destructor (99-103). *)
Definition delete1 (h : list bool) (a : nat) : outcome (list bool) :=
  if nth a h false then Ok (firstn a h ++ false :: skipn (S a) h) else UB.
Definition destroy (h : list bool) (s : task) : outcome (list bool) :=
  let* h1 := match t_dist s with Some (a, _) => delete1 h a | None => Ok h end in delete1 h1 (t_weight s).

(** Outcome of GWRBasic::fit: results, an exception derived from std::exception, another one (the const char* and the
    cublasStatus_t thrown in cumat.hpp:746, 786 and cumat.cpp:71), undefined behaviour. *)
Inductive fitted := Fitted (r : Res) (d : Diag) (bw : R) | StdException | OtherException | Undefined.

(** fit (GWRBasicGpuTask.cpp:10-47): [Ok (true, _)], [Ok (false, _)], or an exception that leaves the function.  Building the SpatialWeight
    clones the distance (SpatialWeight.h:72-76). *)
Definition fit (s : task) (optimize : bool) (run : fitted) : outcome (bool * task) :=
  match t_dist s with
  | None => UB
  | Some _ =>
      match run with
      | Fitted r d bw => Ok (true, mkTask (t_coords s) (t_dist s) (t_weight s) r d (if optimize then bw else t_bandwidth s))
      | StdException => Ok (false, s)
      | OtherException => Throw
      | Undefined => UB
      end
  end.
End Task.
Arguments mkTask {Res Diag}. Arguments t_coords {Res Diag}. Arguments t_dist {Res Diag}. Arguments t_weight {Res Diag}.
Arguments t_res {Res Diag}. Arguments t_diag {Res Diag}. Arguments t_bandwidth {Res Diag}.
Arguments create {Res Diag}. Arguments copy {Res Diag}. Arguments assign {Res Diag}. Arguments setDistanceType {Res Diag}.
Arguments setMinkwoski {Res Diag}. Arguments setGeographic {Res Diag}. Arguments destroy {Res Diag}. Arguments fit {Res Diag}.
Arguments Fitted {Res Diag}. Arguments StdException {Res Diag}. Arguments OtherException {Res Diag}. Arguments Undefined {Res Diag}.
