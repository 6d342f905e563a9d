(** Geographically and temporally weighted regression:
    /repo/src/gwmodelpp/GTWR.cpp (selection of lambda, prediction). *)
From Coq Require Import Reals Bool List Arith.
From Verif Require Import Outcome XReal DistModel.
Import ListNotations.
Local Open Scope R_scope.

(** ** LambdaAutoSelection (GTWR.cpp 540-606) *)

(** RsquareByLambda (GTWR.cpp 496-538): status ([true] = Success) and R squared,
    or an exception (None).  An arbitrary function of the call number and of
    lambda; the local regressions behind it are not modelled here. *)
Definition rsquare := nat -> R -> option (bool * xd).

(** GTWR.cpp 567-569. *)
Definition l_eps : R := / 10 ^ 12.
Definition l_ratio : R := (sqrt 5 - 1) / 2.

(** Local variables; [l_ok] is the vector sm (order a, b, p, q); [l_log] is a
    ghost list of the evaluated lambdas, newest first. *)
Record lvars : Type := mkL {
  l_a : R; l_b : R; l_p : R; l_q : R;
  l_fa : xd; l_fb : xd; l_fp : xd; l_fq : xd;
  l_oka : bool; l_okb : bool; l_okp : bool; l_okq : bool;
  l_iter : nat; l_log : list R }.

Definition l_all (s : lvars) : bool := l_oka s && l_okb s && l_okp s && l_okq s.

(** Loop condition (GTWR.cpp 581); a NaN difference ends the loop. *)
Definition l_guard (s : lvars) : bool :=
  l_all s && xleb (XF l_eps) (xabs (xsub (l_fa s) (l_fb s))) && (l_iter s <? 100)%nat.

(** Loop body (GTWR.cpp 583-599); None when RsquareByLambda throws. *)
Definition l_step (f : rsquare) (s : lvars) : option lvars :=
  if xltb (l_fq s) (l_fp s) then
    let b := l_q s in
    let p := l_a s + (1 - l_ratio) * (b - l_a s) in
    match f (length (l_log s)) p with
    | None => None
    | Some (ok, v) => Some (mkL (l_a s) b p (l_p s) (l_fa s) (l_fq s) v (l_fp s)
                              (l_oka s) (l_okb s) ok (l_okq s) (S (l_iter s)) (p :: l_log s))
    end
  else
    let a := l_p s in
    let q := a + l_ratio * (l_b s - a) in
    match f (length (l_log s)) q with
    | None => None
    | Some (ok, v) => Some (mkL a (l_b s) (l_q s) q (l_fp s) (l_fb s) (l_fq s) v
                              (l_oka s) (l_okb s) (l_okp s) ok (S (l_iter s)) (q :: l_log s))
    end.

(** The lambda evaluated next by the loop body. *)
Definition l_next (s : lvars) : R :=
  if xltb (l_fq s) (l_fp s) then l_a s + (1 - l_ratio) * (l_q s - l_a s)
  else l_p s + l_ratio * (l_b s - l_p s).

(** Outcome of the selection with the list of evaluated lambdas (newest first; the one
    that threw included).  [LDiverged] cannot occur (C74). *)
Inductive lsel : Type :=
| LChosen (lambda : R) (log : list R) | LRaised (log : list R) | LDiverged.

Inductive lres : Type := LDone (s : lvars) | LFail (log : list R) | LFuel.

Fixpoint l_loop (fuel : nat) (f : rsquare) (s : lvars) : lres :=
  if l_guard s then
    match fuel with
    | O => LFuel
    | S n => match l_step f s with Some s' => l_loop n f s' | None => LFail (l_next s :: l_log s) end
    end
  else LDone s.

(** GTWR.cpp 600-605. *)
Definition l_finish (s : lvars) : lsel :=
  LChosen (if l_all s then (l_b s + l_a s) / 2 else 0) (l_log s).

(** GTWR.cpp 565-606. *)
Definition LambdaAutoSelection (f : rsquare) : lsel :=
  let a := 0 in let b := 1 in
  let step := b - a in
  let p := a + (1 - l_ratio) * step in
  let q := a + l_ratio * step in
  match f 0%nat a with
  | None => LRaised [a]
  | Some (sa, fa) =>
  match f 1%nat b with
  | None => LRaised [b; a]
  | Some (sb, fb) =>
  match f 2%nat p with
  | None => LRaised [p; b; a]
  | Some (sp, fp) =>
  match f 3%nat q with
  | None => LRaised [q; p; b; a]
  | Some (sq, fq) =>
      match l_loop 101 f (mkL a b p q fa fb fp fq sa sb sp sq 0 [q; p; b; a]) with
      | LDone s => l_finish s
      | LFail log => LRaised log
      | LFuel => LDiverged
      end
  end end end end.

(** ** predict (GTWR.cpp 92-105, 116-140) *)
Section Predict.
(** Coefficients of a local regression. *)
Variable B : Type.
(** BandwidthWeight::weight and the local regression with those weights
    (throws when the normal matrix cannot be inverted). *)
Variable weight : list xd -> list xd.
Variable regress : list xd -> outcome B.

Fixpoint each {A C : Type} (g : A -> outcome C) (l : list A) : outcome (list C) :=
  match l with
  | [] => Ok []
  | a :: t => let* c := g a in let* cs := each g t in Ok (c :: cs)
  end.

(** [d]: the CRSSTDistance object; [cs], [ts]: mCoords, vTimes; [locations] is
    only asked for its number of rows. *)
Definition gtwr_predict (d : crsst) (cs : dmat) (ts : list R) (locations : dmat) : outcome (list B) :=
  let (d', made) := st_makeParameter d [PMat cs; PMat cs; PVec ts; PVec ts] in
  let* _ := made in
  each (fun i => let* dist := st_distance d' i in regress (weight dist)) (seq 0 (m_rows locations)).
End Predict.

(** ** Bandwidth range (GTWR.cpp 36-44): upper end of the search for a fixed
    bandwidth. *)
Definition gtwr_upper (d : crsst) : outcome xd := st_maxDistance d.
