(** What is expected of a local ridge regression object over several calls; independent of the functions of LcObjModel.v. *)
From Coq Require Import Reals Bool List.
From Verif Require Import XReal KernelModel GoldModel LcObjModel.
Import ListNotations.
Local Open Scope R_scope.

(** Everything the user sets, and the status. *)
Definition same_settings {Crd XY Mat Diag Par : Type} (o p : object Crd XY Mat Diag Par) : Prop :=
  o_crd o = o_crd p /\ o_xy o = o_xy p /\ o_par o = o_par p /\ o_weight o = o_weight p /\ o_auto o = o_auto p /\ o_omp o = o_omp p /\ o_term o = o_term p.
(** The settings no call but their setters changes. *)
Definition kept {Crd XY Mat Diag Par : Type} (o o' : object Crd XY Mat Diag Par) : Prop :=
  o_crd o' = o_crd o /\ o_xy o' = o_xy o /\ o_par o' = o_par o /\ o_auto o' = o_auto o /\ o_omp o' = o_omp o /\
  wkernel (o_weight o') = wkernel (o_weight o) /\ wadaptive (o_weight o') = wadaptive (o_weight o) /\ (o_auto o = false -> o_weight o' = o_weight o).
Definition quiet (stop : nat -> bool) : Prop := forall i, stop i = false.
Definition plus (a b : R * R) : R * R := (fst a + fst b, snd a + snd b).
Definition times (k : nat) (a : R * R) : R * R := (INR k * fst a, INR k * snd a).
(** The members setters write, and the others. *)
Definition settings {Crd XY Mat Diag Par : Type} (o : object Crd XY Mat Diag Par) := (o_crd o, o_xy o, o_par o, o_weight o, o_dist o, o_auto o, o_omp o).
Definition outputs {Crd XY Mat Diag Par : Type} (o : object Crd XY Mat Diag Par) := (o_traces o, o_betas o, o_diag o, o_blist o, o_term o).
