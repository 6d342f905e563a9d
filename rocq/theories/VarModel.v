(** Model of VariableForwardSelector.
    Source: src/gwmodelpp/VariableForwardSelector.cpp,
    include/gwmodelpp/VariableForwardSelector.h. *)
From Coq Require Import Reals Bool List Arith.
From Verif Require Import Outcome XReal.
Import ListNotations.

(** A model: indices into mVariables and the criterion of the model
    (pair<vector<size_t>, double>). *)
Notation vmodel := (list nat * xd)%type (only parsing).

(** IVarialbeSelectable::getCriterion(variables, aic): status ([true] = Success)
    and criterion, an arbitrary function of the call number and the variables.
    Simplification: it does not throw (both implementations, GWRBasic.cpp:396-419
    and GWDR.cpp:523-687, catch std::exception). *)
Definition vcriterion := nat -> list nat -> bool * xd.

Section Selector.
Variable crit : vcriterion.
(** std::sort with [left.second > right.second]; ties may come out in any order,
    so the function is a parameter (contract [sorter] in VarSpec.v). *)
Variable srt : list vmodel -> list vmodel.
Variable vars : list nat.      (* mVariables *)
Variable threshold : R.        (* mThreshold *)

(** convertIndexToVariables (cpp:44-50); [mVariables[i]] is unchecked. *)
Fixpoint convert (idx : list nat) : outcome (list nat) :=
  match idx with
  | [] => Ok []
  | i :: t => match nth_error vars i with
              | None => UB
              | Some v => let* r := convert t in Ok (v :: r)
              end
  end.

(** Inner loop (cpp:22-31) over the remaining candidates: final status, number of
    getCriterion calls so far, and the models pushed. *)
Fixpoint group (cur rest : list nat) (k : nat) : outcome (bool * nat * list vmodel) :=
  match rest with
  | [] => Ok (true, k, [])
  | j :: t =>
      let* vs := convert (cur ++ [j]) in
      let (ok, v) := crit k vs in
      if ok then
        let* (s, k', ms) := group cur t (S k) in Ok (s, k', (cur ++ [j], v) :: ms)
      else Ok (false, S k, [(cur ++ [j], v)])
  end.

(** arma vec::index_min: NaN entries are never smaller; starts from +inf, so an
    all-NaN vector yields 0; an empty vector throws. *)
Fixpoint index_min_from (best : xd) (bi i : nat) (l : list xd) : nat :=
  match l with
  | [] => bi
  | v :: t => if xltb v best then index_min_from v i (S i) t else index_min_from best bi (S i) t
  end.
Definition index_min (l : list xd) : outcome nat :=
  match l with [] => Throw | _ => Ok (index_min_from (XI false) 0 0 l) end.

(** The vector [criterions] (cpp:21, 28); entries not reached because of a
    cancellation keep the initial value 0 (Armadillo zero-fills). *)
Definition criterions (rest : list nat) (ms : list vmodel) : list xd :=
  map snd ms ++ repeat (XF 0) (length rest - length ms).

(** restIndex.erase(begin + i). *)
Definition erase (i : nat) (l : list nat) : list nat := firstn i l ++ skipn (S i) l.

(** Outer loop (cpp:18-35), [n] iterations left. *)
Fixpoint outer (n : nat) (cur rest : list nat) (k : nat) : outcome (bool * list vmodel) :=
  match n with
  | O => Ok (true, [])
  | S n' =>
      let* (s, k', ms) := group cur rest k in
      let* b := index_min (criterions rest ms) in
      match nth_error rest b with
      | None => UB
      | Some j =>
          if s then
            let* (s', ms') := outer n' (cur ++ [j]) (erase b rest) k' in Ok (s', ms ++ ms')
          else Ok (false, ms)
      end
  end.

(** Everything optimize does before sorting (cpp:11-35): status and models in
    evaluation order. *)
Definition search : outcome (bool * list vmodel) :=
  outer (length vars) [] (seq 0 (length vars)) 0.

(** sort (cpp:52-64): groups of sizes n, n-1, ..., 1 are sorted separately.
    Iterators past the end and NaN criteria (no strict weak order) are UB. *)
Fixpoint sort_groups (n : nat) (ms : list vmodel) : outcome (list vmodel) :=
  match n with
  | O => Ok ms
  | S n' =>
      if Nat.ltb (length ms) n then UB
      else if existsb (fun m => xisnan (snd m)) (firstn n ms) then UB
      else let* r := sort_groups n' (skipn n ms) in Ok (srt (firstn n ms) ++ r)
  end.

(** select (cpp:66-76): i runs downwards from size()-1 as an unsigned number, so
    the condition i >= 0 never fails; at i = 0 (and for an empty list)
    [models[i - 1]] is out of range. *)
Fixpoint select_from (ms : list vmodel) (i : nat) : outcome vmodel :=
  match i with
  | O => UB
  | S p =>
      match nth_error ms p, nth_error ms i with
      | Some a, Some b =>
          if xleb (XF threshold) (xsub (snd a) (snd b)) then Ok b else select_from ms p
      | _, _ => UB
      end
  end.
Definition select (ms : list vmodel) : outcome vmodel :=
  match ms with [] => UB | _ => select_from ms (length ms - 1) end.

(** optimize (cpp:9-42): the returned variables and the new mVarsCriterion
    ([None]: not assigned). *)
Definition vs_optimize : outcome (list nat * option (list vmodel)) :=
  let* (s, ms) := search in
  if s then
    let* sorted := sort_groups (length vars) ms in
    let* m := select sorted in
    let* vs := convert (fst m) in
    Ok (vs, Some sorted)
  else Ok (vars, None).
End Selector.
