(** Vocabulary for the bandwidth-search properties C21-C28. *)
From Coq Require Import Reals ZArith Bool List.
From Verif Require Import XReal KernelModel GoldModel.
Import ListNotations.
Local Open Scope R_scope.

(** [not_greater a b]: neither is NaN and [a <= b] as doubles. *)
Definition not_greater (a b : xd) : Prop := a <> XN /\ b <> XN /\ xltb b a = false.

(** The criterion never answers NaN. *)
Definition no_nan (crit : criterion) : Prop := forall k w ok v, crit k w = Answer ok v -> v <> XN.

(** Evaluations made by a run. *)
Definition evaluated (r : report) (w : weight) (v : xd) : Prop := In (w, v) (rlog r).

(** A criterion value accepted as valid. *)
Definition valid (v : xd) : Prop := xltb v (XF DBL_MAX) = true.

(** Loop states passed by a run that starts in [st]. *)
Inductive passes (crit : criterion) (w : weight) : vars -> vars -> Prop :=
| passes_here st : passes crit w st st
| passes_next st st' st'' : guard st = true -> step crit w st = Some st' ->
    passes crit w st' st'' -> passes crit w st st''.

(** Loop states of [optimize crit w lo up] on a selector with criterion map [m]. *)
Definition reaches (crit : criterion) (w : weight) (lo up : R) (m : list (R * xd)) (st : vars) : Prop :=
  exists v1 v2, crit 0%nat (first_weight w lo up) = Answer true v1 /\
    crit 1%nat (second_weight w lo up) = Answer true v2 /\
    passes crit w (init_vars w lo up m v1 v2) st.

Definition integer (x : R) : Prop := exists z : Z, x = IZR z.

(** [unimodal g lo up m]: strictly decreasing up to [m], strictly increasing after. *)
Definition unimodal (g : R -> R) (lo up m : R) : Prop :=
  lo <= m <= up /\
  (forall x y, lo <= x -> x < y -> y <= m -> g y < g x) /\
  (forall x y, m <= x -> x < y -> y <= up -> g x < g y).

(** The criterion is the real function [g] of the bandwidth and never fails. *)
Definition answers (crit : criterion) (g : R -> R) : Prop :=
  forall k w, crit k w = Answer true (XF (g (wvalue w))).

(** Temporaries that stay allocated although they are not returned. *)
Definition leaked (r : report) : list temp :=
  match rresult r with
  | Fresh _ => filter (fun t => match t with TWopt => false | _ => true end) (rlive r)
  | _ => rlive r
  end.

(** Both initial evaluations answer with success, and not both with DBL_MAX. *)
Definition starts_well (crit : criterion) (w : weight) (lo up : R) : Prop :=
  exists v1 v2, crit 0%nat (first_weight w lo up) = Answer true v1 /\
    crit 1%nat (second_weight w lo up) = Answer true v2 /\
    ~ (v1 = XF DBL_MAX /\ v2 = XF DBL_MAX).

(** The criterion never throws; its value depends on the weight only. *)
Definition never_raises (crit : criterion) : Prop := forall k w, crit k w <> Raise.
Definition consistent (crit : criterion) : Prop :=
  forall k k' w ok ok' v v', crit k w = Answer ok v -> crit k' w = Answer ok' v' -> v = v'.

(** Newest logged valid value at bandwidth [x]. *)
Fixpoint newest (x : R) (l : list (weight * xd)) : option xd :=
  match l with
  | [] => None
  | (w, v) :: t => if Req_EM_T (wvalue w) x
                   then (if xltb v (XF DBL_MAX) then Some v else newest x t)
                   else newest x t
  end.

Definition strictly_ascending (l : list (R * xd)) : Prop :=
  forall i j p q, (i < j)%nat -> nth_error l i = Some p -> nth_error l j = Some q -> fst p < fst q.
