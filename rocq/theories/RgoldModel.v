(** Model of the golden-section search for a bandwidth with rounding.
    Source: src/gwmodelpp/BandwidthSelector.cpp:6-82; GoldModel.v has the same function over exact numbers, and its weights, criteria, states and
    reports are used here.
    [rn] is the rounding of the exact result of an operation to a double; what is at least [big] in magnitude overflows (only in the difference of two
    criteria; bandwidths are taken to stay far below).  floor, round, fabs and comparisons are exact.  sqrt is correctly rounded, as IEEE 754 requires. *)
From Coq Require Import Reals Bool List Arith.
From Verif Require Import XReal KernelModel GoldModel RoundModel.
Import ListNotations.
Local Open Scope R_scope.

Section Round.
Variables (rn : R -> R) (big : R).
(** const double R = (sqrt(5)-1)/2 (13); const double eps = 1e-4 (12) *)
Definition r_golden : R := rn (rn (rn (sqrt 5) - 1) / 2).
Definition r_eps : R := rn (1 / 10000).
(** 15-17 *)
Definition r_width (lo up : R) : R := rn (r_golden * rn (up - lo)).
Definition r_first (w : weight) (lo up : R) : weight :=
  let x := rn (lo + r_width lo up) in mkWeight (wkernel w) (wadaptive w) (if wadaptive w then rfloor x else x).
Definition r_second (w : weight) (lo up : R) : weight :=
  let x := rn (up - r_width lo up) in mkWeight (wkernel w) (wadaptive w) (if wadaptive w then rround x else x).
(** 31-37 *)
Definition r_init (w : weight) (lo up : R) (m : list (R * xd)) (v1 v2 : xd) : vars :=
  let w1 := r_first w lo up in
  let w2 := r_second w lo up in
  let a := wvalue w1 in
  let b := wvalue w2 in
  mkVars lo up (r_width lo up) a b v1 v2 true true 0 (better a b v1 v2)
    (record b v2 (record a v1 m)) 2 [(w2, v2); (w1, v1)].
(** 38; d1 = f2 - f1 (35, 66) *)
Definition r_guard (st : vars) : bool :=
  s1 st && s2 st && Rltb r_eps (Rabs (dd st)) &&
  xltb (XF r_eps) (xabs (rsub rn big (f2 st) (f1 st))) && Nat.ltb (iter st) 100.
(** 40-66 *)
Definition r_step (crit : criterion) (w : weight) (st : vars) : option vars :=
  let d' := rn (r_golden * dd st) in
  if xltb (f1 st) (f2 st) then
    let l := x2 st in
    let x := rn (l + d') in
    let a := if wadaptive w then rround x else x in
    let wa := mkWeight (wkernel w) (wadaptive w) a in
    match crit (calls st) wa with
    | Raise => None
    | Answer ok v =>
        Some (mkVars l (xU st) d' a (x1 st) v (f1 st) ok (s2 st) (S (iter st))
                (better a (x1 st) v (f1 st)) (record a v (cmap st))
                (S (calls st)) ((wa, v) :: elog st))
    end
  else
    let u := x1 st in
    let x := rn (u - d') in
    let b := if wadaptive w then rfloor x else x in
    let wb := mkWeight (wkernel w) (wadaptive w) b in
    match crit (calls st) wb with
    | Raise => None
    | Answer ok v =>
        Some (mkVars (xL st) u d' (x2 st) b (f2 st) v (s1 st) ok (S (iter st))
                (better (x2 st) b (f2 st) v) (record b v (cmap st))
                (S (calls st)) ((wb, v) :: elog st))
    end.
(** 38-66 *)
Fixpoint r_loop (fuel : nat) (crit : criterion) (w : weight) (st : vars) : lresult :=
  if r_guard st then
    match fuel with
    | O => LFuel
    | S n => match r_step crit w st with
             | Some st' => r_loop n crit w st'
             | None => LFail st
             end
    end
  else LDone st.
(** 6-82 *)
Definition r_optimize (crit : criterion) (w : weight) (lo up : R) (m : list (R * xd)) : report :=
  let w1 := r_first w lo up in
  let w2 := r_second w lo up in
  match crit 0%nat w1 with
  | Raise => mkReport Thrown 1 [] m [TW1; TW2] None
  | Answer ok1 v1 =>
    match crit 1%nat w2 with
    | Raise => mkReport Thrown 2 [(w1, v1)] m [TW1; TW2] None
    | Answer ok2 v2 =>
      let lg := [(w2, v2); (w1, v1)] in
      if negb (ok1 && ok2) then mkReport Original 2 lg m [TW1; TW2] None
      else if is_max_dbl v1 && is_max_dbl v2 then mkReport Thrown 2 lg m [TW1; TW2] None
      else
        match r_loop 101 crit w (r_init w lo up m v1 v2) with
        | LFuel => mkReport Diverged 0 [] m [TW1; TW2] None
        | LFail st => mkReport Thrown (S (calls st)) (elog st) (cmap st) [TW1; TW2] (Some st)
        | LDone st =>
            if s1 st && s2 st
            then mkReport (Fresh (mkWeight (wkernel w) (wadaptive w) (xopt st)))
                   (calls st) (elog st) (cmap st) [TWopt] (Some st)
            else mkReport Original (calls st) (elog st) (cmap st) [] (Some st)
        end
    end
  end.
End Round.
