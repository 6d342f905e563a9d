(** Weighted cross products and residual sums of squares, and the data for which the rounded ones are accurate. *)
From Coq Require Import Reals List ZArith.
From Verif Require Import XReal Sums RoundSpec RgwssModel RgwssSpec.
Local Open Scope R_scope.

Definition cross_of (n : nat) (w a b : nat -> R) : R := bigsum n (fun j => w j * a j * b j).
(** The same with the magnitudes of the terms. *)
Definition size_of (n : nat) (w a b : nat -> R) : R := bigsum n (fun j => Rabs (w j * a j * b j)).
(** At most 2^40 weights between zero and one. *)
Definition unit_weights (n : nat) (w : nat -> R) : Prop := (forall j, (j < n)%nat -> 0 <= w j <= 1) /\ INR n <= p2 40.
(** Numbers of magnitude at most 2^400. *)
Definition moderate_column (n : nat) (a : nat -> R) : Prop := forall j, (j < n)%nat -> Rabs (a j) <= p2 400.

(** Residuals of the coefficients [beta] in the rows of [x], and their sum of squares. *)
Definition residual_of (k : nat) (beta x : nat -> nat -> R) (y : nat -> R) (j : nat) : R :=
  y j - bigsum k (fun c => beta j c * x j c).
Definition rss_of (n k : nat) (beta x : nat -> nat -> R) (y : nat -> R) : R :=
  bigsum n (fun j => residual_of k beta x y j ^ 2).
Definition reads2 (n k : nat) (f : nat -> nat -> xd) (v : nat -> nat -> R) : Prop :=
  forall j c, (j < n)%nat -> (c < k)%nat -> xval (f j c) = Some (v j c).
(** The dependent variable and the terms of the fitted values have magnitude at most M. *)
Definition terms_within (M : R) (n k : nat) (beta x : nat -> nat -> R) (y : nat -> R) : Prop :=
  p2 (-400) <= M <= p2 400 /\ forall j, (j < n)%nat -> Rabs (y j) <= M /\ forall c, (c < k)%nat -> Rabs (beta j c * x j c) <= M.
