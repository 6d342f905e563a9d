(** What is expected of a scalable GWR object over several calls; independent of the functions of ScaObjModel.v. *)
From Coq Require Import Reals Bool List ZArith.
From Verif Require Import KernelModel ScaNnSpec ScaObjModel.
Import ListNotations.
Local Open Scope R_scope.

(** Two or more observations, and one distance for each pair. *)
Definition sound {Data : Type} (d_n : Data -> nat) (d_dist : Data -> nat -> list R) (d : Data) : Prop :=
  (2 <= d_n d)%nat /\ (Z.of_nat (d_n d) < 2 ^ 61)%Z /\ forall i, (i < d_n d)%nat -> length (d_dist d i) = d_n d.

(** The kernels for which scalable GWR is written. *)
Definition two_kernels (k : kernel) : Prop := k = Gaussian \/ k = Exponential.

(** The bandwidths with which a fit of n observations gets through the neighbour search (C82). *)
Definition accepted (cv : bool) (bw : R) (n : nat) : Prop :=
  0 <= bw < IZR (2 ^ 64) /\
  if cv then (50 < Int_part bw < Z.of_nat n \/ Z.of_nat n <= Int_part bw)%Z else (1 <= Int_part bw)%Z.

(** Of n observations, as many neighbours as the bandwidth says and at most n - 1. *)
Definition count (bw : R) (n : nat) : nat := Nat.min (Z.to_nat (Int_part bw)) (n - 1).
(** [rows]: for each of [m] places with distances [dist i] its k nearest observations; [col]: its distance to the 50th of them,
    or to the last if there are fewer. *)
Definition neighbour_lists (dist : nat -> list R) (m k : nat) (rows : list (list nat * list R)) (col : list R) : Prop :=
  length rows = m /\ length col = m /\ forall i, (i < m)%nat -> exists idx ds,
    nth_error rows i = Some (idx, ds) /\ nearest_to (dist i) k idx ds /\ nth_error col i = nth_error ds (Nat.min 50 k - 1).

(** Settings: everything that is set by the user. *)
Definition same_settings {Data Mat Se Diag : Type} (o o' : object Data Mat Se Diag) : Prop :=
  o_data o = o_data o' /\ o_bw o = o_bw o' /\ o_kernel o = o_kernel o' /\ o_cv o = o_cv o'.
Definition is_computation {Data Loc Tel : Type} (c : call Data Loc Tel) : Prop :=
  match c with Fit _ _ _ _ | Predict _ _ _ _ _ => True | _ => False end.
Definition sets_weight {Data Loc Tel : Type} (c : call Data Loc Tel) : Prop :=
  match c with SetWeight _ _ => True | _ => False end.
(** The data sets that are fitted, or used for predictions, in the calls [cs] on an object with data [d]. *)
Fixpoint used {Data Loc Tel : Type} (d : Data) (cs : list (call Data Loc Tel)) : list Data :=
  match cs with
  | [] => []
  | SetData d' :: t => used d' t
  | Fit _ _ _ _ :: t | Predict _ _ _ _ _ :: t => d :: used d t
  | _ :: t => used d t
  end.
(** The lists on which the criterion is computed: with CV one neighbour less than the bandwidth says, the observation itself
    counted; with AIC the observation itself is put in front of as many as the bandwidth says. *)
Definition search_lists (cv : bool) (dist : nat -> list R) (n : nat) (bw : R) (rows : list (list nat * list R)) (col : list R) : Prop :=
  length rows = n /\ length col = n /\ forall i, (i < n)%nat -> exists idx ds,
    nth_error rows i = Some (idx, ds) /\ nth_error col i = nth_error ds (Nat.min 50 (count bw n) - 1) /\
    let k := Nat.min (Z.to_nat (Int_part bw)) n in
    if cv then nearest_to (dist i) (k - 1) idx ds
    else exists idx' ds', idx = i :: idx' /\ ds = 0 :: ds' /\ nearest_to (dist i) k idx' ds'.

(** The data, kernel and criterion set last in the calls [cs]; without any, those given first. *)
Definition last_set {A B : Type} (pick : A -> option B) (b : B) (cs : list A) : B :=
  fold_left (fun x c => match pick c with Some y => y | None => x end) cs b.
Definition sets_data {Data Loc Tel : Type} (c : call Data Loc Tel) : option Data := match c with SetData d => Some d | _ => None end.
Definition sets_kernel {Data Loc Tel : Type} (c : call Data Loc Tel) : option kernel := match c with SetWeight _ k => Some k | _ => None end.
Definition sets_criterion {Data Loc Tel : Type} (c : call Data Loc Tel) : option bool := match c with SetCriterion cv => Some cv | _ => None end.
