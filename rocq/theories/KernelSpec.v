(** Specification vocabulary for the weighting properties: textbook kernels and
    order statistics, independent of the model. *)
From Coq Require Import Reals Bool List ZArith.
From Verif Require Import Outcome XReal KernelModel.
Import ListNotations.
Local Open Scope R_scope.

(** Textbook kernel functions of the distance [d] and the bandwidth [h]. *)
Definition K (k : kernel) (d h : R) : R :=
  match k with
  | Gaussian => exp (- ((d / h) ^ 2) / 2)
  | Exponential => exp (- (d / h))
  | Bisquare => if Rlt_dec d h then (1 - (d / h) ^ 2) ^ 2 else 0
  | Tricube => if Rlt_dec d h then (1 - (d / h) ^ 3) ^ 3 else 0
  | Boxcar => if Rlt_dec d h then 1 else 0
  end.

(** The same with the Boxcar kernel including its boundary, as in the CUDA code. *)
Definition cu_K (k : kernel) (d h : R) : R :=
  match k with Boxcar => if Rle_dec d h then 1 else 0 | _ => K k d h end.

Definition compact (k : kernel) : bool :=
  match k with Gaussian | Exponential => false | _ => true end.

(** Numbers of entries strictly below / at most a threshold / equal to zero. *)
Definition count_lt (t : R) (l : list R) : nat :=
  length (filter (fun x => if Rlt_dec x t then true else false) l).
Definition count_le (t : R) (l : list R) : nat :=
  length (filter (fun x => if Rle_dec x t then true else false) l).
Definition count_zero (l : list R) : nat :=
  length (filter (fun x => if Req_EM_T x 0 then true else false) l).

(** [x] is the [k]-th smallest entry of [l] (k counted from 1). *)
Definition kth_smallest (k : nat) (l : list R) (x : R) : Prop :=
  In x l /\ (count_lt x l < k <= count_le x l)%nat.

Definition nonneg (l : list R) : Prop := Forall (fun d => 0 <= d) l.

(** [h] is the distance bandwidth described by an adaptive bandwidth [b]:
    the k-th nearest distance interpolated towards the (k+1)-th one when
    [b] is below the number of points, the scaled largest distance otherwise. *)
Definition adaptive_bandwidth (b : R) (ds : list R) (h : R) : Prop :=
  (b < INR (length ds) ->
     exists (k : nat) (dk dk1 : R),
       INR k <= b < INR k + 1 /\ kth_smallest k ds dk /\
       kth_smallest (S k) ds dk1 /\ h = dk + (b - INR k) * (dk1 - dk)) /\
  (INR (length ds) <= b ->
     exists dmax, kth_smallest (length ds) ds dmax /\
       h = b / INR (length ds) * dmax).

(** The bandwidth configuration is usable for the distances [ds]: fixed and
    positive, or adaptive, at least 1, and larger than the number of points that
    coincide with the focus (which must not be all of them). *)
Definition usable (adaptive : bool) (b : R) (ds : list R) : Prop :=
  if adaptive
  then 1 <= b /\ INR (count_zero ds) < b /\ (count_zero ds < length ds)%nat
  else 0 < b.

(** The call returns normally and its entries are finite with values [rs]. *)
Definition returns_values (o : outcome (list xd)) (rs : list R) : Prop :=
  exists ws, o = Ok ws /\ xvals ws rs.

(** The vector whose i-th entry is entry [p_i] of [l]. *)
Definition pick (l : list R) (p : list nat) : list R := map (fun i => nth i l 0) p.
