(** Model of a principal components object (GWPCA) over several calls.
    Source: GWPCA.cpp:6-17 (run), 19-45 (solveSerial), 47-52 (wpca); GWPCA.h:36-71 (constructor, setters),
    116-131 (members).
    The decomposition of one location (wpca: arma::svd of the weighted centred data) is given: see PcaModel for
    its meaning.  [None] is a failing svd, which leaves d and V empty.
    Simplifications: finite numbers are exact; mWinner is left out (nothing reads it), mScores and mLatestWt are never
    assigned. *)
From Coq Require Import Reals Bool List Arith ZArith.
From Verif Require Import XReal Sums.
Import ListNotations.
Local Open Scope R_scope.

Definition put {A : Type} (i : nat) (a : A) (m : list A) : list A := firstn i m ++ a :: skipn (S i) m.

Section Object.
(** mX *)
Variable table : Type.
Variables rows columns : table -> nat.
(** Singular values and columns of V for the weights of one location. *)
Variable decompose : table -> (nat -> R) -> option (list R * list (list R)).

(** [o_locs] is mCoords.n_rows, [o_weight i] is weightVector(i) (of that length). *)
Record obj := mkObj { o_x : table; o_locs : nat; o_weight : nat -> nat -> R; o_k : Z; o_term : bool;
  o_pv : list (list xd); o_loadings : list (list (list R)); o_sdev : list (list xd) }.
Definition create (x : table) (n : nat) (w : nat -> nat -> R) : obj := mkObj x n w 2 false [] [] [].
Inductive setter := SetVariables (x : table) | SetCoords (n : nat) | SetWeight (w : nat -> nat -> R) | SetKeep (k : Z).
Definition assign (s : setter) (o : obj) : obj :=
  match s with
  | SetVariables x => mkObj x (o_locs o) (o_weight o) (o_k o) (o_term o) (o_pv o) (o_loadings o) (o_sdev o)
  | SetCoords n => mkObj (o_x o) n (o_weight o) (o_k o) (o_term o) (o_pv o) (o_loadings o) (o_sdev o)
  | SetWeight w => mkObj (o_x o) (o_locs o) w (o_k o) (o_term o) (o_pv o) (o_loadings o) (o_sdev o)
  | SetKeep k => mkObj (o_x o) (o_locs o) (o_weight o) k (o_term o) (o_pv o) (o_loadings o) (o_sdev o)
  end.
Definition with_term (b : bool) (o : obj) : obj := mkObj (o_x o) (o_locs o) (o_weight o) (o_k o) b (o_pv o) (o_loadings o) (o_sdev o).

(** "loadings.slice(j).row(i) = trans(V.col(j))" for j from [j] on (34-37): V.col(j) is checked, and so is the length. *)
Fixpoint store (c i j count : nat) (V : list (list R)) (l : list (list (list R))) : list (list (list R)) * bool :=
  match count with
  | O => (l, true)
  | S m =>
      match nth_error V j, nth_error l j with
      | Some v, Some slice => if Nat.eqb (length v) c then store c i (S j) m V (put j (put i v slice) l) else (l, false)
      | _, _ => (l, false)
      end
  end.
(** The loop (25-39).  [w0] is the latest weight vector, if any. *)
Inductive loop_end :=
| Ended (stopped : bool) (d_all : list (list R)) (w0 : option (nat -> R)) (l : list (list (list R)))
| Threw (l : list (list (list R))).
Section Run.
Variable stop : nat -> bool.
Variable o : obj.
Fixpoint loop (todo : list nat) (d_all : list (list R)) (w0 : option (nat -> R)) (l : list (list (list R))) : loop_end :=
  match todo with
  | [] => Ended false d_all w0 l
  | i :: t =>
      if stop i then Ended true d_all w0 l
      else if negb (Nat.eqb (rows (o_x o)) (o_locs o)) then Threw l
      else
        let '(d, V) := match decompose (o_x o) (o_weight o i) with Some r => r | None => ([], []) end in
        if negb (Nat.eqb (length d) (columns (o_x o))) then Threw l
        else match store (columns (o_x o)) i 0 (Z.to_nat (o_k o)) V l with
             | (l', true) => loop t (put i d d_all) (Some (o_weight o i)) l'
             | (l', false) => Threw l'
             end
  end.
End Run.

(** 41-43: variance, sdev, pv.  [s0] is sum(w0); the sum of an empty vector is zero. *)
Definition scaled (s0 v : R) : xd := xdiv (XF v) (xsqrt (XF s0)).
Definition variance (s0 v : R) : xd := xmul (scaled s0 v) (scaled s0 v).
Definition xsum (l : list xd) : xd := fold_left xadd l (XF 0).
Definition sdev_row (s0 : R) (d : list R) : list xd := map (fun v => xsqrt (variance s0 v)) d.
Definition pv_row (s0 : R) (k : nat) (d : list R) : list xd :=
  let f := xdiv (XF 1) (xsum (map (variance s0) d)) in
  map (fun v => xmul (xmul (variance s0 v) f) (XF 100)) (firstn k d).

Inductive result := Returns (o : obj) | Throws (o : obj).
(** run (6-17); [early] and [late] are the requests to stop at 10 and 14. *)
Definition run (early : bool) (stop : nat -> bool) (late : bool) (o : obj) : result :=
  let n := o_locs o in let c := columns (o_x o) in
  let set := fun term pv l sd => mkObj (o_x o) n (o_weight o) (o_k o) term pv l sd in
  if early then Returns (with_term true o)
  else if (o_k o <? 0)%Z then Throws o                        (* cube(nDp, nVar, mK): too large *)
  else
    let k := Z.to_nat (o_k o) in
    match loop stop o (seq 0 n) (repeat (repeat 0 c) n) None (repeat (repeat (repeat 0 c) n) k) with
    | Threw l => Throws (set (o_term o) (o_pv o) l (o_sdev o))
    | Ended stopped d_all w0 l =>
        let term := (o_term o || stopped)%bool in
        let s0 := match w0 with Some w => bigsum n w | None => 0 end in
        let sd := map (sdev_row s0) d_all in
        if (Nat.eqb k 0 || Nat.ltb c k)%bool then Throws (set term (o_pv o) l sd)  (* variance.cols(0, mK - 1) *)
        else Returns (set (term || late)%bool (map (pv_row s0 k) d_all) l sd)
    end.
End Object.
