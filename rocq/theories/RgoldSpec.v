(** Vocabulary for the golden-section search with rounding. *)
From Coq Require Import Reals ZArith Bool List.
From Verif Require Import XReal KernelModel GoldModel GoldSpec RoundSpec RgoldModel.
Local Open Scope R_scope.

(** Bounds of magnitude up to 2^24 (about 1.7 * 10^7, in metres more than any distance in a projection). *)
Definition range24 (lo up : R) : Prop := - p2 24 <= lo /\ lo < up /\ up <= p2 24.
(** Loop states passed by a run that starts in [st]. *)
Inductive r_passes (rn : R -> R) (big : R) (crit : criterion) (w : weight) : vars -> vars -> Prop :=
| rp_here st : r_passes rn big crit w st st
| rp_next st st' st'' : r_guard rn big st = true -> r_step rn crit w st = Some st' ->
    r_passes rn big crit w st' st'' -> r_passes rn big crit w st st''.
(** Loop states of a search. *)
Definition r_reaches (rn : R -> R) (big : R) (crit : criterion) (w : weight) (lo up : R) (m : list (R * xd)) (st : vars) : Prop :=
  exists v1 v2, crit 0%nat (r_first rn w lo up) = Answer true v1 /\ crit 1%nat (r_second rn w lo up) = Answer true v2 /\
    r_passes rn big crit w (r_init rn w lo up m v1 v2) st.
