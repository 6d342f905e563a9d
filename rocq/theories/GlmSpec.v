(** Vocabulary of C63-C66, C90, C91. *)
From Coq Require Import Reals Bool List Arith ZArith.
From Verif Require Import Outcome XReal Sums OmpModel GlmModel.
Import ListNotations.
Local Open Scope R_scope.

(** The first n entries of v are the numbers vs. *)
Definition numbers (n : nat) (v : nat -> xd) (vs : nat -> R) : Prop :=
  forall i, (i < n)%nat -> xval (v i) = Some (vs i).

(** All n entries are numbers with property P. *)
Definition all_numbers (n : nat) (P : R -> Prop) (v : nat -> xd) : Prop :=
  forall i, (i < n)%nat -> exists r, xval (v i) = Some r /\ P r.

(** The iterations finished by thread t. *)
Definition finished_by (t : nat) (s : list event) : list nat :=
  flat_map (fun e => match e with End_ u i => if Nat.eqb u t then [i] else [] | Begin _ => [] end) s.

(** Means and responses a family allows. *)
Definition valid_mean (fam : family) (m : R) : Prop :=
  match fam with Poisson => 0 < m | Binomial => 0 < m < 1 end.
Definition valid_response (fam : family) (n : nat) (y : nat -> R) : Prop := forall i, (i < n)%nat ->
  match fam with Poisson => 0 <= y i | Binomial => 0 <= y i <= 1 end.
(** exp, and the logistic function. *)
Definition inverse_link (fam : family) (e : xd) : xd :=
  match fam with Poisson => xexp e | Binomial => xdiv (xexp e) (xadd (XF 1) (xexp e)) end.

(** A regression that returns numbers when it is given numbers and positive weights. *)
Definition keeps_numbers (n : nat) (regress : xvec -> xvec -> outcome xvec) : Prop :=
  forall w z nu, all_numbers n (Rlt 0) w -> all_numbers n (fun _ => True) z -> regress w z = Ok nu ->
    all_numbers n (fun _ => True) nu.
(** ... and does not fail on them. *)
Definition succeeds (n : nat) (regress : xvec -> xvec -> outcome xvec) : Prop :=
  forall w z, all_numbers n (Rlt 0) w -> all_numbers n (fun _ => True) z -> exists nu, regress w z = Ok nu.

(** Textbook quantities: y log(y/m) with 0 log 0 = 0, deviance of one observation, variance
    function, inverse link. *)
Definition ylogy (a m : R) : R := if Req_EM_T a 0 then 0 else a * ln (a / m).
Definition unit_deviance (fam : family) (y m : R) : R :=
  match fam with
  | Poisson => 2 * (ylogy y m - (y - m))
  | Binomial => 2 * (ylogy y m + ylogy (1 - y) (1 - m))
  end.
Definition variance_of (fam : family) (m : R) : R :=
  match fam with Poisson => m | Binomial => m * (1 - m) end.
Definition mean_of (fam : family) (e : R) : R :=
  match fam with Poisson => exp e | Binomial => exp e / (1 + exp e) end.
(** Inverse link of the global model: Poisson means are at least 2.220446e-16. *)
Definition bounded_mean (fam : family) (e : R) : R :=
  match fam with Poisson => Rmax (exp e) (2220446 / 10 ^ 22) | Binomial => exp e / (1 + exp e) end.

(** A regression that solves the weighted normal equations. *)
Definition solves_wls (n p : nat) (x : nat -> nat -> R) (solve : xvec -> xvec -> outcome xvec) : Prop :=
  forall w z ws zs b, numbers n w ws -> (forall j, (j < n)%nat -> 0 <= ws j) -> numbers n z zs -> solve w z = Ok b ->
  exists bs, numbers p b bs /\
    forall a, (a < p)%nat -> bigsum n (fun j => ws j * x j a * (zs j - bigsum p (fun c => x j c * bs c))) = 0.
(** Numbers a 64-bit unsigned word holds. *)
Definition word (n : nat) : Prop := (Z.of_nat n < 2 ^ 64)%Z.
