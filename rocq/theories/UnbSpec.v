(** Vocabulary: expectation over finitely many outcomes, uncorrelated errors. *)
From mathcomp Require Import all_ssreflect all_algebra.
Set Implicit Arguments. Unset Strict Implicit. Unset Printing Implicit Defensive.
Local Open Scope ring_scope.

(** Outcome [t] has probability [P t]; the mean of a quantity. *)
Definition expect (F : realFieldType) (T : finType) (P : T -> F) (f : T -> F) : F := \sum_t P t * f t.

(** The errors [e t] of the observations have mean zero, variance [v] and are uncorrelated. *)
Definition uncorrelated (F : realFieldType) (T : finType) (n : nat) (P : T -> F) (e : T -> 'cV[F]_n) (v : F) : Prop :=
  [/\ forall t, 0 <= P t, \sum_t P t = 1, forall j, expect P (fun t => e t j ord0) = 0 &
      forall j k, expect P (fun t => e t j ord0 * e t k ord0) = if j == k then v else 0].
