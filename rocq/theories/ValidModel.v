(** The isValid functions.  Matrices are given by their sizes; [None] for a weight: the pointer is null
    (SpatialWeight.h 442), its use is undefined behaviour. *)
From Coq Require Import Reals Bool List Arith ZArith.
From Verif Require Import Outcome XReal KernelModel.
Import ListNotations.

Record size : Type := mkSize { rows : nat; cols : nat }.
Record bweight : Type := mkW { w_bw : xd; w_adaptive : bool; w_kernel : KernelModel.kernel }.

(** SpatialAlgorithm.cpp 5-8: is_empty() is "no elements". *)
Definition valid_spatial (coords : size) : bool := negb (Nat.eqb (rows coords * cols coords) 0).

(** GWRBase.cpp 6-19 *)
Definition valid_base (coords x : size) (yrows : nat) : bool :=
  if valid_spatial coords
  then if negb (Nat.ltb 0 (cols x)) then false
       else if negb (Nat.eqb (rows x) yrows && Nat.eqb (rows x) (rows coords)) then false else true
  else false.

(** GWRBasic.cpp 1132-1145, GTWR.cpp 267-280; GWRRobust inherits it; GWRGeneralized and
    GWRLocalCollinearity use [valid_base]. *)
Definition valid_basic (coords x : size) (yrows : nat) (w : option bweight) : outcome bool :=
  if valid_base coords x yrows
  then match w with
       | None => UB
       | Some b => Ok (if negb (xltb (XF 0) (w_bw b)) then false else true)
       end
  else Ok false.

(** GWRScalable.cpp 665-681 *)
Definition valid_scalable (coords x : size) (yrows : nat) (w : option bweight) : outcome bool :=
  if valid_base coords x yrows
  then match w with
       | None => UB
       | Some b => Ok (if negb (match w_kernel b with Gaussian | Exponential => true | _ => false end) then false
                       else if negb (xltb (XF 0) (w_bw b)) then false else true)
       end
  else Ok false.

(** GWSS.cpp 51-61, GWDA.cpp 15-26 *)
Definition valid_gwss (coords x : size) : bool :=
  if valid_spatial coords then if negb (Nat.ltb 0 (cols x)) then false else true else false.
(** GWPCA.cpp 54-65; mK is an int. *)
Definition valid_gwpca (coords : size) (k : Z) : bool :=
  if valid_spatial coords then if Z.ltb 0 k then true else false else false.
(** GWDR.cpp 751-763 *)
Definition valid_gwdr (coords : size) (weights : nat) : bool :=
  if valid_spatial coords then if negb (Nat.eqb weights (cols coords)) then false else true else false.

(** GWRMultiscale.cpp 446-487 *)
Inductive initial : Type := Null | Initial | Specified.
Fixpoint valid_weights (l : list (option bweight * initial)) : outcome bool :=
  match l with
  | [] => Ok true
  | (w, Null) :: t => valid_weights t
  | (None, _) :: t => UB
  | (Some b, _) :: t =>
      if (if w_adaptive b then xleb (w_bw b) (XF 1) else xltb (w_bw b) (XF 0)) then Ok false else valid_weights t
  end.
Definition valid_multiscale (x : size) (ws : list (option bweight)) (init : list initial)
    (approaches centred thresholds : nat) : outcome bool :=
  if negb (Nat.ltb 0 (cols x)) then Ok false
  else if negb (Nat.eqb (length ws) (cols x)) then Ok false
  else if negb (Nat.eqb (length init) (cols x)) then Ok false
  else if negb (Nat.eqb approaches (cols x)) then Ok false
  else if negb (Nat.eqb centred (cols x)) then Ok false
  else if negb (Nat.eqb thresholds (cols x)) then Ok false
  else valid_weights (combine ws init).
