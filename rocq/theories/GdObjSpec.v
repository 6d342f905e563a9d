(** What is expected of a GWDR object over several calls; independent of the functions of GdObjModel.v. *)
From Coq Require Import Reals Bool List ZArith.
From Verif Require Import XReal KernelModel DistModel GwdrModel GdObjModel.
Import ListNotations.
Local Open Scope R_scope.

(** What the user sets of a dimension. *)
Definition chosen (d : dimension) : bool * kernel * R := (d_adaptive d, d_kernel d, d_bw d).
Definition kind (d : dimension) : bool * kernel := (d_adaptive d, d_kernel d).
(** Everything the user sets, and the status. *)
Definition same_settings {C Y Mat Se Diag : Type} (o p : object C Y Mat Se Diag) : Prop :=
  o_coords o = o_coords p /\ o_rows o = o_rows p /\ o_x o = o_x p /\ o_y o = o_y p /\ map chosen (o_dims o) = map chosen (o_dims p) /\
  o_intercept o = o_intercept p /\ o_auto_bw o = o_auto_bw p /\ o_auto_vars o = o_auto_vars p /\ o_threshold o = o_threshold p /\
  o_maxiter o = o_maxiter p /\ o_term o = o_term p.
(** One weight for each column of coordinates, as isValid demands; columns of equal lengths. *)
Definition matching {C Y Mat Se Diag : Type} (o : object C Y Mat Se Diag) : Prop :=
  length (o_dims o) = length (o_coords o) /\ forall c, In c (o_coords o) -> length c = o_rows o.
(** The dimensions with the coordinates [cols] in place. *)
Definition located (cols : list (list R)) (ds : list dimension) : list dimension :=
  map (fun p => Dim (d_adaptive (snd p)) (d_kernel (snd p)) (d_bw (snd p)) (Some (fst p, fst p))) (combine cols ds).

Definition sets_x {C Y Tel : Type} (c : call C Y Tel) : Prop := match c with SetX _ => True | _ => False end.
Definition sets_weights {C Y Tel : Type} (c : call C Y Tel) : Prop := match c with SetWeights _ => True | _ => False end.
Definition turns_on {C Y Tel : Type} (c : call C Y Tel) : Prop := match c with SetAutoBw true => True | _ => False end.
Definition is_fit {C Y Tel : Type} (c : call C Y Tel) : Prop := match c with Fit _ _ => True | _ => False end.
(** The telegram never interrupts. *)
Definition quiet (stop : nat -> bool) : Prop := forall i, stop i = false.
(** The whole number nearest to a non-negative number, the larger one of two. *)
Definition rounds_to (v r : R) : Prop := (exists k : nat, r = INR k) /\ v - / 2 < r <= v + / 2.
(** The settings of [o] and [o'] that a call never changes. *)
Definition kept {C Y Mat Se Diag : Type} (o o' : object C Y Mat Se Diag) : Prop :=
  o_coords o' = o_coords o /\ o_rows o' = o_rows o /\ o_y o' = o_y o /\ map kind (o_dims o') = map kind (o_dims o) /\
  o_intercept o' = o_intercept o /\ o_auto_bw o' = o_auto_bw o /\ o_auto_vars o' = o_auto_vars o /\ o_threshold o' = o_threshold o /\ o_maxiter o' = o_maxiter o.
(** The members setters write, and the others. *)
Definition gd_settings {C Y Mat Se Diag : Type} (o : object C Y Mat Se Diag) :=
  (o_coords o, o_rows o, o_x o, o_y o, o_dims o, o_intercept o, o_auto_bw o, o_auto_vars o, o_threshold o, o_maxiter o).
Definition gd_outputs {C Y Mat Se Diag : Type} (o : object C Y Mat Se Diag) := (o_betas o, o_se o, o_diag o, o_selected o, o_vlist o, o_term o).
