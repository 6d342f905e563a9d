(** Vocabulary for the variable-selection properties C29-C34. *)
From Coq Require Import Reals Bool List Arith Permutation.
From Verif Require Import Outcome XReal VarModel.
Import ListNotations.

(** [descending l]: no later criterion is greater than an earlier one. *)
Definition descending (l : list vmodel) : Prop :=
  forall i j a b, (i < j)%nat -> nth_error l i = Some a -> nth_error l j = Some b ->
    xltb (snd a) (snd b) = false.

(** Contract of std::sort with comparator [>] on criteria without NaN. *)
Definition sorter (srt : list vmodel -> list vmodel) : Prop :=
  forall l, (forall m, In m l -> snd m <> XN) -> Permutation (srt l) l /\ descending (srt l).

(** The variables named by an index list. *)
Definition named (vars idx vs : list nat) : Prop := map Some vs = map (nth_error vars) idx.

(** [forward cur rest ms]: [ms] are the models of a forward search that has chosen
    [cur] and may still choose from [rest]: one group with every one-variable
    extension of [cur], then the search continues with a variable [j] whose
    criterion in the group no other criterion is below. *)
Inductive forward : list nat -> list nat -> list vmodel -> Prop :=
| forward_end cur : forward cur [] []
| forward_group cur a j b va vj vb ms :
    length va = length a -> length vb = length b ->
    (forall v, In v (va ++ vb) -> xltb v vj = false) ->
    forward (cur ++ [j]) (a ++ b) ms ->
    forward cur (a ++ j :: b)
      (combine (map (fun x => cur ++ [x]) (a ++ j :: b)) (va ++ vj :: vb) ++ ms).

(** Consecutive groups of sizes n, n-1, ..., 1. *)
Fixpoint slices (n : nat) (ms : list vmodel) : list (list vmodel) :=
  match n with
  | O => []
  | S n' => firstn n ms :: slices n' (skipn n ms)
  end.

(** Position [i] improves on its predecessor by at least the threshold. *)
Definition improves (t : R) (ms : list vmodel) (i : nat) : Prop :=
  exists p a b, i = S p /\ nth_error ms p = Some a /\ nth_error ms i = Some b /\
    xleb (XF t) (xsub (snd a) (snd b)) = true.
