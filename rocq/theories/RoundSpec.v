(** Specification vocabulary for rounded arithmetic. *)
From Coq Require Import Reals Bool List ZArith.
From Verif Require Import XReal KernelSpec.
Local Open Scope R_scope.

(** Powers of two. *)
Definition p2 (k : Z) : R := powerRZ 2 k.
(** A rounding: monotone, exact on zero, on powers of two of moderate size and on whole numbers up to 2^53, and not overflowing
    below 2^1000.  Every rounding mode of binary64 is one; nothing more is said about its precision. *)
Record rounding (rn : R -> R) (big : R) : Prop := {
  rn_mono : forall x y, x <= y -> rn x <= rn y;
  rn_zero : rn 0 = 0;
  rn_p2 : forall k, (-1000 <= k <= 1000)%Z -> rn (p2 k) = p2 k;
  rn_np2 : forall k, (-1000 <= k <= 1000)%Z -> rn (- p2 k) = - p2 k;
  rn_int : forall n, INR n <= p2 53 -> rn (INR n) = INR n;
  big_p2 : p2 1000 < big }.
(** An implementation of exp: monotone, non-negative, exact at zero. *)
Record exponential (fe : R -> R) : Prop := {
  fe_mono : forall x y, x <= y -> fe x <= fe y;
  fe_zero : fe 0 = 1;
  fe_nonneg : forall x, 0 <= fe x }.

(** Distances up to 2^50 (about 10^15), those that are not zero at least 2^-50 (about 10^-15). *)
Definition moderate (ds : list R) : Prop := Forall (fun d => d = 0 \/ p2 (-50) <= d <= p2 50) ds.
(** A fixed bandwidth between 2^-50 and 2^50; an adaptive one up to 2^40 that exceeds the number of points at distance zero by
    at least one and at which not all points have distance zero. *)
Definition usable_rounded (adaptive : bool) (b : R) (ds : list R) : Prop :=
  if adaptive then INR (count_zero ds) + 1 <= b <= p2 40 /\ (count_zero ds < length ds)%nat
  else p2 (-50) <= b <= p2 50.

(** IEEE 754 binary64, round to nearest, ties to even: the nearest multiple of the spacing of doubles at [x], which is
    2^(e-52) for 2^e <= |x| < 2^(e+1), and 2^-1074 for subnormal numbers. *)
Definition exponent (x : R) : Z := Int_part (ln (Rabs x) / ln 2).
Definition spacing (x : R) : R := p2 (Z.max (exponent x - 52) (-1074)).
(** The nearest integer, the even one of two. *)
Definition nearest (x : R) : Z :=
  let z := Int_part x in
  if Rltb (x - IZR z) (1 / 2) then z
  else if Rltb (1 / 2) (x - IZR z) then (z + 1)%Z
  else if Z.even z then z else (z + 1)%Z.
Definition binary64 (x : R) : R := if Reqb x 0 then 0 else spacing x * IZR (nearest (x / spacing x)).
(** Everything that rounds to 2^1024 or more overflows. *)
Definition binary64_big : R := p2 1024 - p2 970.

(** The interpolated order statistic of KernelSpec.adaptive_bandwidth, rounded at every operation. *)
Definition adaptive_rounded (rn : R -> R) (b : R) (ds : list R) (h : R) : Prop :=
  let dn := rn (b / INR (length ds)) in
  (dn < 1 -> exists (k : nat) (dk dk1 : R), INR k <= b < INR k + 1 /\ kth_smallest k ds dk /\ kth_smallest (S k) ds dk1 /\
     h = rn (dk + rn (rn (dk1 - dk) * rn (b - INR k)))) /\
  (1 <= dn -> exists dmax, kth_smallest (length ds) ds dmax /\ h = rn (dn * dmax)).

(** A rounding to one of the two neighbouring numbers of 53 bits: the relative error is at most 2^-52, except for tiny numbers. *)
Definition faithful (rn : R -> R) : Prop := forall x, p2 (-1000) <= Rabs x -> Rabs (rn x - x) <= p2 (-52) * Rabs x.
(** An exp that is wrong by at most 2^-52 on negative arguments. *)
Definition accurate_exp (fe : R -> R) : Prop := forall x, x <= 0 -> Rabs (fe x - exp x) <= p2 (-52).
