(** Locations, columns and the accuracy of local sums. *)
From Coq Require Import Reals List ZArith.
From Verif Require Import XReal Outcome Sums KernelSpec RoundSpec RdistSpec.
Import ListNotations.
Local Open Scope R_scope.

(** At most 2^40 points with coordinates of magnitude up to 2^400, which are equal to those of [o] or differ by 2^-400 or more, at distance
    zero or between 2^-49 and 2^49 of it; a bandwidth that is a double and can be used. *)
Definition sited (adaptive : bool) (b : R) (o : R * R) (ps : list (R * R)) : Prop :=
  placed o /\ Forall placed ps /\ Forall (separated o) ps /\
  Forall (fun p => planar o p = 0 \/ p2 (-49) <= planar o p <= p2 49) ps /\
  usable_rounded adaptive b (map (planar o) ps) /\ is_double b /\ INR (length ps) <= p2 40.
(** Numbers [l] of magnitude at most M, read as [v]. *)
Definition column (M : R) (n : nat) (v : list xd) (l : list R) : Prop := xvals v l /\ length l = n /\ Forall (fun r => Rabs r <= M) l.
(** The bandwidth at [o]. *)
Definition bandwidth_at (adaptive : bool) (b : R) (o : R * R) (ps : list (R * R)) (h : R) : Prop :=
  if adaptive then adaptive_bandwidth b (map (planar o) ps) h else h = b.
(** The sum of K(d_j, h) x_j y_j over the points, without point [leave], and the sum of |x_j y_j|. *)
Definition local_sum (kern : R -> R -> R) (h : R) (leave : option nat) (o : R * R) (ps : list (R * R)) (x y : list R) : R :=
  bigsum (length ps) (fun j => (match leave with Some i => if Nat.eqb j i then 0 else 1 | None => 1 end) * kern (planar o (nth j ps o)) h * nth j x 0 * nth j y 0).
Definition magnitude (x y : list R) : R := bigsum (length x) (fun j => Rabs (nth j x 0 * nth j y 0)).
(** The error granted to a sum of n terms. *)
Definition slack (n : nat) (A : R) : R := (INR n * p2 (-49) + p2 (-44)) * A + INR n * p2 (-590).
(** An inversion of 1 x 1 matrices with a relative error of at most 2^-50. *)
Definition inverts (inv1 : xd -> outcome xd) : Prop :=
  forall s r, xval s = Some r -> p2 (-400) <= r <= p2 450 -> exists i q, inv1 s = Ok i /\ xval i = Some q /\ Rabs (q - / r) <= p2 (-50) * / r.
