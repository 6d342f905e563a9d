(** Vocabulary of C172. *)
From Coq Require Import Reals.
From Verif Require Import Sums GlmModel GlmSpec.
Local Open Scope R_scope.

(** Linear predictor of observation j with coefficients b. *)
Definition lin (p : nat) (x : nat -> nat -> R) (b : nat -> R) (j : nat) : R := bigsum p (fun a => x j a * b a).
(** Weighted log-likelihood of the coefficients b, without the terms free of b: means exp(e), or exp(e) / (1 + exp(e)). *)
Definition cumulant (fam : family) (e : R) : R := match fam with Poisson => exp e | Binomial => ln (1 + exp e) end.
Definition log_likelihood (fam : family) (n p : nat) (x : nat -> nat -> R) (y w : nat -> R) (b : nat -> R) : R :=
  bigsum n (fun j => w j * (y j * lin p x b j - cumulant fam (lin p x b j))).
(** b maximises it. *)
Definition max_likelihood (fam : family) (n p : nat) (x : nat -> nat -> R) (y w : nat -> R) (b : nat -> R) : Prop :=
  forall c, log_likelihood fam n p x y w c <= log_likelihood fam n p x y w b.
(** The coefficients b' i of location i solve the weighted normal equations in which every observation j has the working
    weight and the working response of the coefficients b j of its own location. *)
Definition scoring_round (fam : family) (n p : nat) (x : nat -> nat -> R) (y : nat -> R) (wt : nat -> nat -> R)
    (b b' : nat -> nat -> R) : Prop := forall i a, (i < n)%nat -> (a < p)%nat ->
  let e j := lin p x (b j) j in
  let v j := variance_of fam (mean_of fam (e j)) in
  bigsum n (fun j => wt i j * v j * x j a * (e j + (y j - mean_of fam (e j)) / v j - lin p x (b' i) j)) = 0.
