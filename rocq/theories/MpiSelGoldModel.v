(** The golden-section search as a search that asks for one criterion after the other
    (for C165).
    Source: src/gwmodelpp/BandwidthSelector.cpp 6-81, as in GoldModel; nothing new is
    modelled, the calls of getCriterion are only made visible: the criteria already
    obtained are replayed, and the next call is the answer. *)
From Coq Require Import Reals Bool List.
From Verif Require Import XReal KernelModel MpiSelModel GoldModel.
Import ListNotations.
Local Open Scope R_scope.

(** The bandwidth the loop body evaluates (40-48, 54-59). *)
Definition asked (w : weight) (st : vars) : weight :=
  mkWeight (wkernel w) (wadaptive w)
    (if xltb (f1 st) (f2 st)
     then (if wadaptive w then rround (x2 st + golden * dd st) else x2 st + golden * dd st)
     else (if wadaptive w then rfloor (x1 st - golden * dd st) else x1 st - golden * dd st)).

(** The loop (38-66), replayed. *)
Fixpoint replay (fuel : nat) (w : weight) (st : vars) (h : list (bool * xd)) : ask result weight :=
  if guard st then
    match fuel with
    | O => Return Diverged
    | S n =>
        match h with
        | [] => Ask (asked w st)
        | (ok, v) :: t =>
            match step (fun _ _ => GoldModel.Answer ok v) w st with
            | Some st' => replay n w st' t
            | None => Return Thrown
            end
        end
    end
  else Return (if s1 st && s2 st then Fresh (mkWeight (wkernel w) (wadaptive w) (xopt st)) else Original).

(** optimize (6-81), replayed. *)
Definition golden_plan (w : weight) (lo up : R) (m : list (R * xd)) (h : list (bool * xd)) : ask result weight :=
  match h with
  | [] => Ask (first_weight w lo up)
  | [_] => Ask (second_weight w lo up)
  | (ok1, v1) :: (ok2, v2) :: t =>
      if negb (ok1 && ok2) then Return Original
      else if is_max_dbl v1 && is_max_dbl v2 then Return Thrown
      else replay 101 w (init_vars w lo up m v1 v2) t
  end.
