(** Vocabulary for the theorems about GWDR. *)
From Coq Require Import Reals Bool List ZArith.
From Verif Require Import Outcome XReal KernelModel KernelSpec GwdrModel.
Import ListNotations.
Local Open Scope R_scope.

(** Distances from observation [i] along one dimension. *)
Definition gaps (m : gdim) (i : nat) : list R := map (fun c => Rabs (c - nth i (g_col m) 0)) (g_col m).

(** The bandwidth of the dimension is a number usable at observation [i]. *)
Definition dim_ok (n i : nat) (m : gdim) : Prop :=
  length (g_col m) = n /\ exists b, xval (g_bw m) = Some b /\ usable (g_adaptive m) b (gaps m i).

(** [h] is the distance bandwidth of the dimension at observation [i]. *)
Definition dim_bandwidth (i : nat) (m : gdim) (h : R) : Prop :=
  exists b, xval (g_bw m) = Some b /\
    if g_adaptive m then adaptive_bandwidth b (gaps m i) h else h = b.

Fixpoint prod (l : list R) : R := match l with [] => 1 | r :: t => r * prod t end.

(** Product over the dimensions of the kernel weights between observations [i] and [j]. *)
Definition product_weight (ms : list gdim) (hs : list R) (i j : nat) : R :=
  prod (map (fun mh => K (g_kernel (fst mh)) (nth j (gaps (fst mh) i) 0) (snd mh)) (combine ms hs)).

(** The minimiser evaluates the start point first. *)
Definition starts_at (g : gsl) (x : list R) : Prop := exists more, g_points g 0 = x :: more.
(** minimizer->x is always a point that has been evaluated. *)
Definition best_seen (g : gsl) : Prop := forall k, In (g_x g k) (calls g k).
