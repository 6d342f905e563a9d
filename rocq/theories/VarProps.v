(** Property theorems C29-C34: forward variable selection.  Vocabulary: VarSpec.v.
    [srt] is any function fulfilling the contract of std::sort. *)
From Coq Require Import Reals Bool List Arith Permutation Lia.
From Verif Require Import Outcome XReal VarModel VarSpec VarProofs.
Import ListNotations.

(** C29: the selected variables are distinct and belong to the candidates. *)
Theorem C29_subset : forall crit srt vars t sel rep, sorter srt -> NoDup vars ->
  vs_optimize crit srt vars t = Ok (sel, rep) -> NoDup sel /\ incl sel vars.
Proof. exact C29_main. Qed.
Print Assumptions C29_subset.
Example C29_case : sorter vsort /\ exists sel rep,
  vs_optimize vdemo_crit vsort [7; 8] 3%R = Ok (sel, Some rep).
Proof. exact (conj vsort_sorter vdemo_ok). Qed.

(** C30, C31: the search never fails; without cancellation it evaluates k(k+1)/2
    models, and they form a forward search from the empty model: each group holds
    all one-variable extensions of the model chosen before, and the variable chosen
    next has a criterion in its group that no other candidate's is below
    ([forward]).  The value stored with a model is the one getCriterion gave. *)
Theorem C30_C31_forward_search : forall crit vars, exists s ms, search crit vars = Ok (s, ms) /\
  (s = true -> forward [] (seq 0 (length vars)) ms /\
     2 * length ms = length vars * (length vars + 1)) /\
  (forall p idx v, nth_error ms p = Some (idx, v) ->
     exists vs, named vars idx vs /\ snd (crit p vs) = v).
Proof. exact C30_main. Qed.
Print Assumptions C30_C31_forward_search.
Example C30_case : search vdemo_crit [7; 8] =
  Ok (true, [([0], XF 20); ([1], XF 10); ([1; 0], XF 10)]).
Proof. exact vdemo_search. Qed.

(** C32: the reported list is a permutation of the evaluated models; each group is
    permuted within itself and ordered by decreasing criterion. *)
Theorem C32_reported : forall crit srt vars t ms sel rep, sorter srt ->
  search crit vars = Ok (true, ms) ->
  vs_optimize crit srt vars t = Ok (sel, Some rep) ->
  Permutation rep ms /\
  Forall2 (fun g g' => Permutation g' g /\ descending g')
    (slices (length vars) ms) (slices (length vars) rep).
Proof. exact C32_main. Qed.
Print Assumptions C32_reported.
(** The groups cover the whole list. *)
Theorem C32_groups_cover : forall n ms, 2 * length ms = n * (n + 1) -> concat (slices n ms) = ms.
Proof. exact slices_concat. Qed.
Print Assumptions C32_groups_cover.

(** C33: the choice of the final model succeeds exactly when some model improves on
    its predecessor in the reported list by at least the threshold; it is
    undefined behaviour otherwise.
    Missing from the full statement: unconditional safety, refuted below. *)
Theorem C33_safe_exactly_when_partial : forall crit srt vars t ms rep, sorter srt ->
  search crit vars = Ok (true, ms) ->
  sort_groups srt (length vars) ms = Ok rep ->
  ((exists sel, vs_optimize crit srt vars t = Ok (sel, Some rep)) <-> (exists i, improves t rep i)) /\
  (vs_optimize crit srt vars t = UB <-> forall i, ~ improves t rep i).
Proof. exact C33_exact_main. Qed.
Print Assumptions C33_safe_exactly_when_partial.

(** C33: when it succeeds it returns the variables of the last improving model. *)
Theorem C33_choice : forall crit srt vars t ms rep, search crit vars = Ok (true, ms) ->
  sort_groups srt (length vars) ms = Ok rep ->
  forall sel rep', vs_optimize crit srt vars t = Ok (sel, rep') ->
  exists i m, improves t rep i /\ (forall j, i < j -> ~ improves t rep j) /\
    nth_error rep i = Some m /\ named vars (fst m) sel.
Proof. exact C33_choice_main. Qed.
Print Assumptions C33_choice.

(** C33 is false for every run with a single candidate variable, and for several
    candidates when the threshold exceeds every improvement. *)
Theorem C33_single_candidate_refuted : forall crit srt v t, sorter srt ->
  (forall k vs, fst (crit k vs) = true) -> (forall k vs, snd (crit k vs) <> XN) ->
  vs_optimize crit srt [v] t = UB.
Proof. exact C33_single_main. Qed.
Print Assumptions C33_single_candidate_refuted.
Theorem C33_threshold_refuted : exists crit srt vars t, sorter srt /\ length vars = 2 /\
  vs_optimize crit srt vars t = UB.
Proof. exists vdemo_crit, vsort, [7; 8], 11%R. exact (conj vsort_sorter (conj eq_refl C33_refuted_two_main)). Qed.
Print Assumptions C33_threshold_refuted.

(** C34: the search ends with a status other than success exactly when some call
    reported one, and then the original candidate list is returned. *)
Theorem C34_cancelled : forall crit srt vars t, exists s ms, search crit vars = Ok (s, ms) /\
  (s = false <-> exists p idx v vs,
     nth_error ms p = Some (idx, v) /\ named vars idx vs /\ fst (crit p vs) = false) /\
  (s = false -> vs_optimize crit srt vars t = Ok (vars, None)).
Proof. exact C34_main. Qed.
Print Assumptions C34_cancelled.
Example C34_case : exists ms, search (fun k _ => (Nat.eqb k 0, XF 1)) [7; 8] = Ok (false, ms).
Proof. exact vcancel_search. Qed.
