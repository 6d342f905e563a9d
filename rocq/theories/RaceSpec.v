(** Vocabulary of C167: executions of a parallel loop and data races. *)
From Coq Require Import Reals List Arith.
From Verif Require Import RaceModel.
Import ListNotations.

Definition before {A : Type} (l : list A) (a b : A) : Prop := exists p q r, l = p ++ a :: q ++ b :: r.

(** Every iteration from [lo] to [hi] begins and ends once; the iterations of one thread
    follow each other in ascending order; nothing else is synchronised. *)
Definition execution (lo hi : nat) (thr : nat -> nat) (evs : list event) : Prop :=
  NoDup evs /\
  (forall i, In (Begin i) evs -> (lo <= i < hi)%nat) /\ (forall i, In (End_ i) evs -> (lo <= i < hi)%nat) /\
  (forall i, (lo <= i < hi)%nat -> before evs (Begin i) (End_ i)) /\
  (forall i j, (lo <= i)%nat -> (i < j < hi)%nat -> thr i = thr j -> before evs (End_ i) (Begin j)).

(** A data race: two iterations in different threads use the same location, and one of them writes. *)
Definition race (lo hi : nat) (thr : nat -> nat) (acc : nat -> list access) : Prop :=
  exists i j l k k', (lo <= i < hi)%nat /\ (lo <= j < hi)%nat /\ thr i <> thr j /\
    In (l, k) (acc i) /\ In (l, k') (acc j) /\ (k = Wr \/ k' = Wr).

(** Iterations that return at once after a request to stop; the weights of discriminant analysis are
    computed without asking. *)
Definition told (f : loop) (stop : nat -> bool) (i : nat) : bool := match f with Gwda_weights => false | _ => stop i end.

(** At least two threads have an iteration that is not stopped. *)
Definition shared_out (lo hi : nat) (thr : nat -> nat) (stop : nat -> bool) : Prop :=
  exists i j, (lo <= i < hi)%nat /\ (lo <= j < hi)%nat /\ thr i <> thr j /\ stop i = false /\ stop j = false.

(** All elements of all rows are written once; each thread writes its rows one after the other and
    each row from left to right. *)
Definition writing (lo hi p : nat) (thr : nat -> nat) (ws : list (nat * nat)) : Prop :=
  NoDup ws /\ (forall i j, In (i, j) ws <-> (lo <= i < hi)%nat /\ (j < p)%nat) /\
  (forall i i' j j', (lo <= i < hi)%nat -> (lo <= i' < hi)%nat -> thr i = thr i' -> (j < p)%nat -> (j' < p)%nat ->
     (i < i')%nat \/ (i = i' /\ (j < j')%nat) -> before ws (i, j) (i', j')).
(** The last iteration of some thread. *)
Definition last_of_thread (lo hi : nat) (thr : nat -> nat) (i : nat) : Prop :=
  (lo <= i < hi)%nat /\ forall k, (i < k < hi)%nat -> thr k <> thr i.

(** Every iteration has its own row of S (where rows are written at all), and its own slice of mC. *)
Definition rows_kept (f : loop) (c : settings) : Prop :=
  match f with
  | Basic_fitCore | Robust_fit => storeS c = true \/ (hat c = true /\ (size c < 2 ^ 13)%nat)
  | Gtwr_fit | Gwdr_fit => hat c = true /\ (size c < 2 ^ 13)%nat
  | Poisson_fit_hat | Binomial_fit_hat => (size c <= 2 ^ 13)%nat
  | _ => True
  end.
Definition slices_kept (f : loop) (c : settings) : Prop :=
  match f with Basic_fitCore => storeC c = true | _ => True end.

(** Loops that stop working on further locations after a failure. *)
Definition gives_up (f : loop) : Prop :=
  In f [Basic_predict; Basic_fitCore; Basic_fitCoreCV; Basic_fitCoreSHat; Gtwr_predict; Gtwr_fit; Gtwr_cv; Gtwr_aic;
        Robust_fit; Gwdr_predict; Gwdr_aic; Gwdr_variable; Ms_cv; Ms_shat].
(** Loops that record a failure and go on. *)
Definition goes_on (f : loop) : Prop :=
  In f [Gwdr_fit; Ms_fit_hat; Ms_fit; Poisson_fit_hat; Poisson_fit; Binomial_fit_hat; Binomial_fit].
