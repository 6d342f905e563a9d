(** Model of BandwidthSelector (golden-section search for a bandwidth).
    Source: src/gwmodelpp/BandwidthSelector.cpp, include/gwmodelpp/BandwidthSelector.h.

    Bandwidths and bracket ends are exact reals; criterion values are extended
    doubles, so NaN and infinities are covered. *)
From Coq Require Import Reals ZArith Bool List.
From Verif Require Import XReal KernelModel.
Import ListNotations.
Local Open Scope R_scope.

(** A BandwidthWeight object: kernel, adaptive flag, bandwidth
    (include/gwmodelpp/spatialweight/BandwidthWeight.h). *)
Record weight := mkWeight { wkernel : kernel; wadaptive : bool; wvalue : R }.

(** IBandwidthSelectable::getCriterion(w, f) (include/gwmodelpp/IBandwidthSelectable.h):
    it returns a status ([true] = Status::Success) and stores a criterion, or throws.
    The criterion is an arbitrary function of the call number and the weight. *)
Inductive answer := Answer (ok : bool) (v : xd) | Raise.
Definition criterion := nat -> weight -> answer.

(** The three BandwidthWeight objects allocated by optimize
    (BandwidthSelector.cpp:8, 9, 72). *)
Inductive temp := TW1 | TW2 | TWopt.

(** Local variables of optimize, the member mBandwidthCriterion, and two ghost
    fields: the number of getCriterion calls and the log of answered calls
    (newest first). *)
Record vars := mkVars {
  xL : R; xU : R; dd : R; x1 : R; x2 : R; f1 : xd; f2 : xd; s1 : bool; s2 : bool;
  iter : nat; xopt : R; cmap : list (R * xd); calls : nat; elog : list (weight * xd) }.

(** BandwidthSelector.cpp:12-13. *)
Definition eps : R := / 10000.
Definition golden : R := (sqrt 5 - 1) / 2.

(** std::floor and std::round (half away from zero). *)
Definition rfloor (x : R) : R := IZR (Int_part x).
Definition rround (x : R) : R :=
  if Rleb 0 x then rfloor (x + 1 / 2) else - rfloor (- x + 1 / 2).

(** unordered_map<double,double>::operator[] assignment; the map is an
    association list with at most one entry per key. *)
Definition mput (x : R) (v : xd) (m : list (R * xd)) : list (R * xd) :=
  (x, v) :: filter (fun p => negb (Reqb (fst p) x)) m.

(** [if (f < DBL_MAX) mBandwidthCriterion[x] = f] (31-34, 50-51, 61-62). *)
Definition record (x : R) (v : xd) (m : list (R * xd)) : list (R * xd) :=
  if xltb v (XF DBL_MAX) then mput x v m else m.

(** [f == DBL_MAX] (27). *)
Definition is_max_dbl (v : xd) : bool := xleb v (XF DBL_MAX) && xleb (XF DBL_MAX) v.

(** [f1 < f2 ? x1 : x2] (36, 65). *)
Definition better (a b : R) (fa fb : xd) : R := if xltb fa fb then a else b.

(** Result of optimize: the initial object mBandwidth, a new object, an
    exception, or (never, see C22) no result within the fuel. *)
Inductive result := Original | Fresh (w : weight) | Thrown | Diverged.

(** What optimize leaves behind: result, number of getCriterion calls, log of
    answered calls (newest first), member mBandwidthCriterion, temporaries still
    allocated, and the local variables at the end of the loop if it was reached. *)
Record report := mkReport {
  rresult : result; rcalls : nat; rlog : list (weight * xd); rmap : list (R * xd);
  rlive : list temp; rfinal : option vars }.

(** Loop condition (38). *)
Definition guard (st : vars) : bool :=
  s1 st && s2 st && Rltb eps (Rabs (dd st)) &&
  xltb (XF eps) (xabs (xsub (f2 st) (f1 st))) && Nat.ltb (iter st) 100.

(** Loop body (40-66); [None] when getCriterion throws. *)
Definition step (crit : criterion) (w : weight) (st : vars) : option vars :=
  let d' := golden * dd st in
  if xltb (f1 st) (f2 st) then
    let l := x2 st in
    let a := if wadaptive w then rround (l + d') else l + d' in
    let wa := mkWeight (wkernel w) (wadaptive w) a in
    match crit (calls st) wa with
    | Raise => None
    | Answer ok v =>
        Some (mkVars l (xU st) d' a (x1 st) v (f1 st) ok (s2 st) (S (iter st))
                (better a (x1 st) v (f1 st)) (record a v (cmap st))
                (S (calls st)) ((wa, v) :: elog st))
    end
  else
    let u := x1 st in
    let b := if wadaptive w then rfloor (u - d') else u - d' in
    let wb := mkWeight (wkernel w) (wadaptive w) b in
    match crit (calls st) wb with
    | Raise => None
    | Answer ok v =>
        Some (mkVars (xL st) u d' (x2 st) b (f2 st) v (s1 st) ok (S (iter st))
                (better (x2 st) b (f2 st) v) (record b v (cmap st))
                (S (calls st)) ((wb, v) :: elog st))
    end.

(** The while loop (38-66).  [LFail st]: getCriterion threw in state [st]. *)
Inductive lresult := LDone (st : vars) | LFail (st : vars) | LFuel.

Fixpoint loop (fuel : nat) (crit : criterion) (w : weight) (st : vars) : lresult :=
  if guard st then
    match fuel with
    | O => LFuel
    | S n => match step crit w st with
             | Some st' => loop n crit w st'
             | None => LFail st
             end
    end
  else LDone st.

(** The first two bandwidths (15-17) as weights (8-9, 18-19). *)
Definition first_weight (w : weight) (lo up : R) : weight :=
  let d := golden * (up - lo) in
  mkWeight (wkernel w) (wadaptive w) (if wadaptive w then rfloor (lo + d) else lo + d).
Definition second_weight (w : weight) (lo up : R) : weight :=
  let d := golden * (up - lo) in
  mkWeight (wkernel w) (wadaptive w) (if wadaptive w then rround (up - d) else up - d).

(** The variables when the loop is entered (10-37), after two successful
    evaluations with values [v1], [v2]. *)
Definition init_vars (w : weight) (lo up : R) (m : list (R * xd)) (v1 v2 : xd) : vars :=
  let w1 := first_weight w lo up in
  let w2 := second_weight w lo up in
  let a := wvalue w1 in
  let b := wvalue w2 in
  mkVars lo up (golden * (up - lo)) a b v1 v2 true true 0 (better a b v1 v2)
    (record b v2 (record a v1 m)) 2 [(w2, v2); (w1, v1)].

(** optimize (6-81) on a selector with initial weight [w], bounds [lo], [up] and
    criterion map [m] left by earlier calls. *)
Definition optimize (crit : criterion) (w : weight) (lo up : R) (m : list (R * xd)) : report :=
  let w1 := first_weight w lo up in
  let w2 := second_weight w lo up in
  match crit 0%nat w1 with
  | Raise => mkReport Thrown 1 [] m [TW1; TW2] None
  | Answer ok1 v1 =>
    match crit 1%nat w2 with
    | Raise => mkReport Thrown 2 [(w1, v1)] m [TW1; TW2] None
    | Answer ok2 v2 =>
      let lg := [(w2, v2); (w1, v1)] in
      if negb (ok1 && ok2) then mkReport Original 2 lg m [TW1; TW2] None
      else if is_max_dbl v1 && is_max_dbl v2 then mkReport Thrown 2 lg m [TW1; TW2] None
      else
        match loop 101 crit w (init_vars w lo up m v1 v2) with
        | LFuel => mkReport Diverged 0 [] m [TW1; TW2] None
        | LFail st => mkReport Thrown (S (calls st)) (elog st) (cmap st) [TW1; TW2] (Some st)
        | LDone st =>
            (* delete w1; delete w2; (68-69) *)
            if s1 st && s2 st
            then mkReport (Fresh (mkWeight (wkernel w) (wadaptive w) (xopt st)))
                   (calls st) (elog st) (cmap st) [TWopt] (Some st)
            else mkReport Original (calls st) (elog st) (cmap st) [] (Some st)
        end
    end
  end.

(** bandwidthCriterion (83-95): the map's entries sorted by bandwidth.  Keys are
    distinct, so the unspecified iteration order of the map does not matter. *)
Fixpoint kinsert (p : R * xd) (l : list (R * xd)) : list (R * xd) :=
  match l with
  | [] => [p]
  | q :: t => if Rltb (fst q) (fst p) then q :: kinsert p t else p :: l
  end.
Fixpoint ksort (l : list (R * xd)) : list (R * xd) :=
  match l with [] => [] | p :: t => kinsert p (ksort t) end.
Definition bandwidth_criterion (m : list (R * xd)) : list (R * xd) := ksort m.

(** Several optimize calls on one selector; the map is a member and survives. *)
Fixpoint optimize_many (runs : list (criterion * weight * R * R)) (m : list (R * xd))
  : list report * list (R * xd) :=
  match runs with
  | [] => ([], m)
  | (crit, w, lo, up) :: t =>
      let r := optimize crit w lo up m in
      let (rs, m') := optimize_many t (rmap r) in (r :: rs, m')
  end.
