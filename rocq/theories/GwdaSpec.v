(** Specification vocabulary for discriminant analysis; independent of
    GwdaModel. *)
From Coq Require Import Reals Bool List Arith String.
From Verif Require Import XReal Sums.
Import ListNotations.
Local Open Scope R_scope.

(** [k] is the position of the first occurrence of [s] in [y]. *)
Definition first_at (y : list string) (s : string) (k : nat) : Prop :=
  nth_error y k = Some s /\ forall k', (k' < k)%nat -> nth_error y k' <> Some s.

(** The entries of [x] whose label is [s], in their original order. *)
Definition with_label {A : Type} (x : list A) (y : list string) (s : string) : list A :=
  map snd (filter (fun q => String.eqb (fst q) s) (combine y x)).

(** Total weight in column [j] of the observations labelled [s]. *)
Definition label_weight (n : nat) (y : list string) (wt : nat -> nat -> R) (s : string) (j : nat) : R :=
  bigsum n (fun k => match nth_error y k with
                     | Some t => if String.eqb t s then wt k j else 0
                     | None => 0 end).

(** [l] is a vector of finite doubles with values [rs]. *)
Definition row_values (l : list xd) (rs : list R) : Prop := xvals l rs.

(** The finite double [v] has value [r]. *)
Definition has_value (v : xd) (r : R) : Prop := xval v = Some r.

(** Number of positive entries of a list of reals. *)
Definition positives (rs : list R) : nat := List.length (filter (fun r => Rltb 0 r) rs).

(** Quadratic form of a p x p matrix. *)
Definition quad_form (p : nat) (c : nat -> nat -> R) (v : nat -> R) : R :=
  bigsum p (fun a => bigsum p (fun b => v a * c a b * v b)).

(** Sum over the observations labelled [s]; weighted mean and unbiased weighted covariance of the
    label [s] with the weights of column [j]. *)
Definition label_sum (n : nat) (y : list string) (s : string) (f : nat -> R) : R :=
  bigsum n (fun k => match nth_error y k with Some t => if String.eqb t s then f k else 0 | None => 0 end).
Definition label_mean (n : nat) (y : list string) (x wt : nat -> nat -> R) (s : string) (j a : nat) : R :=
  label_sum n y s (fun k => wt k j * x k a) / label_sum n y s (fun k => wt k j).
Definition label_cov (n : nat) (y : list string) (x wt : nat -> nat -> R) (s : string) (j a b : nat) : R :=
  let S := label_sum n y s (fun k => wt k j) in
  let ma := label_mean n y x wt s j a in
  let mb := label_mean n y x wt s j b in
  S * label_sum n y s (fun k => wt k j * ((x k a - ma) * (x k b - mb)))
  / (S * S - label_sum n y s (fun k => wt k j * wt k j)).
