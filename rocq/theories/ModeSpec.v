(** Vocabulary of C42. *)
From Coq Require Import Bool List.
From Verif Require Import Outcome ModeModel.
Import ListNotations.

(** The computation a mode asks for, and whether it asks for several processes. *)
Definition wanted (t : ptype) : kind :=
  match t with
  | SerialOnly | MPI | MPI_Serial => KSerial
  | OpenMP | MPI_MP => KOmp
  | CUDA | MPI_CUDA => KCuda
  end.
Definition distributed_mode (t : ptype) : bool :=
  match t with MPI | MPI_Serial | MPI_MP | MPI_CUDA => true | _ => false end.
Definition outer_wanted (t : ptype) : kind := if distributed_mode t then KMpi else KBase.

(** The library was built with what the mode needs. *)
Definition built (c : config) (t : ptype) : bool :=
  match wanted t with KOmp => omp c | KCuda => cuda c | _ => true end &&
  (if distributed_mode t then mpi c else true).

(** Algorithms with several processes in their source. *)
Definition mpi_alg (a : alg) : bool := match a with Basic => true | _ => false end.
Definition cuda_alg (a : alg) : bool := match a with Basic | Multiscale => true | _ => false end.
(** The mode exists for the algorithm. *)
Definition offered (a : alg) (t : ptype) : bool :=
  match t with
  | SerialOnly | OpenMP => true
  | CUDA => cuda_alg a
  | MPI => false
  | MPI_Serial | MPI_MP | MPI_CUDA => mpi_alg a
  end.

(** Every pointer of the algorithm designates the implementation the mode asks for,
    with the variant currently selected.  [u] says whether the bandwidth criterion is
    included. *)
Definition consistent (a : alg) (u : bool) (s : state) : Prop :=
  let w := Some (wanted (ty s), Plain) in
  let o := Some (outer_wanted (ty s), Plain) in
  let p := ptr s in
  match a with
  | Basic => p_fit p = w /\ p_predict p = w /\ p_cv p = w /\ p_shat p = w /\
      p_outer p = o /\ p_indep p = o /\
      (u = true -> p_crit p = Some (outer_wanted (ty s), Crit (crit s)))
  | Robust => p_fit p = w
  | Gtwr => p_fit p = w /\ p_predict p = w
  | Gwdr => p_fit p = w /\ p_predict p = w /\ p_indep p = w /\
      p_crit p = Some (wanted (ty s), Crit (crit s))
  | Generalized =>
      (forall f, fam s = Some f ->
        p_fit p = Some (wanted (ty s), Fam f) /\ p_wt p = Some (wanted (ty s), Fam f)) /\
      (u = true -> p_crit p = Some (wanted (ty s), Crit (crit s)))
  | LocalCol => p_fit p = w /\ p_predict p = w /\ p_crit p = Some (wanted (ty s), Crit (crit s))
  | Multiscale => p_fit p = w /\ p_cv p = w /\ p_shat p = w /\ p_outer p = o
  | Gwss => p_fit p = Some (wanted (ty s), Mode (mode s))
  | Gwda => p_fit p = w
  end.

(** Every mode requested by the calls exists for the algorithm and was compiled. *)
Definition sensible (a : alg) (c : config) (l : list call) : Prop :=
  forall t, In (SetType t) l -> offered a t = true /\ built c t = true.
(** A criterion or an accepted mode has been set at least once. *)
Definition criterion_set (a : alg) (c : config) (l : list call) : Prop :=
  exists x, In x l /\ match x with SetType t => accepts a c t = true | SetCrit _ => True | _ => False end.
