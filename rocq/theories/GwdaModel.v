(** Geographically weighted discriminant analysis:
    /repo/src/gwmodelpp/GWDA.cpp and include/gwmodelpp/GWDA.h.

    Simplifications, valid for the whole file: the coordinates, the variables
    and the group labels have the same number [n] of rows (isValid does not check
    it); observed values and weights are finite reals; sums are exact; the
    dense solver and the matrix norm are oracles. *)
From Coq Require Import Reals Bool List Arith String Lra.
From Verif Require Import Outcome XReal DiagModel.
Import ListNotations.
Local Open Scope R_scope.

(** ** Group labels *)

(** GWDA.cpp 164-177: labels in order of first appearance; [std::find] over the
    labels collected so far. *)
Definition levels (y : list string) : list string :=
  fold_left (fun lev s => if existsb (String.eqb s) lev then lev else lev ++ [s]) y [].

(** GWDA.cpp 140-148: [find(flags == 1)]. *)
Definition findSameString (y : list string) (s : string) : list nat :=
  filter (fun i => match nth_error y i with Some t => String.eqb t s | None => false end)
         (seq 0 (List.length y)).

(** Armadillo [x.rows(idx)]: throws when an index is out of range. *)
Fixpoint rows {A : Type} (x : list A) (idx : list nat) : outcome (list A) :=
  match idx with
  | [] => Ok []
  | i :: t => match nth_error x i with
              | Some r => let* rest := rows x t in Ok (r :: rest)
              | None => Throw
              end
  end.

Fixpoint mapO {A B : Type} (f : A -> outcome B) (l : list A) : outcome (list B) :=
  match l with
  | [] => Ok []
  | a :: t => let* b := f a in let* bs := mapO f t in Ok (b :: bs)
  end.

(** GWDA.cpp 151-161. *)
Definition splitX {A : Type} (x : list A) (y : list string) : outcome (list (list A)) :=
  mapO (fun s => rows x (findSameString y s)) (levels y).

(** GWDA.cpp 179-196: [unordered_map<string,uword>], as an association list;
    the iteration order is never used by the code. *)
Fixpoint bump (s : string) (counts : list (string * nat)) : list (string * nat) :=
  match counts with
  | [] => [(s, 1%nat)]
  | (t, c) :: r => if String.eqb t s then (t, S c) :: r else (t, c) :: bump s r
  end.
Definition ytable (y : list string) : list (string * nat) :=
  fold_left (fun counts s => bump s counts) y [].
(** [counts[s]]: inserts 0 for an absent key. *)
Fixpoint count_of (s : string) (counts : list (string * nat)) : nat :=
  match counts with
  | [] => 0%nat
  | (t, c) :: r => if String.eqb t s then c else count_of s r
  end.

(** ** Local statistics of one group *)

Definition xlsum (l : list xd) : xd := fold_left xadd l (XF 0).

(** Column [j] of [wt.rows(idx)] as doubles, and divided by its sum: GWDA.cpp
    404-409 and 422-424. *)
Definition colw (wt : nat -> nat -> R) (idx : list nat) (j : nat) : list xd :=
  map (fun k => XF (wt k j)) idx.
Definition normw (wt : nat -> nat -> R) (idx : list nat) (j : nat) : list xd :=
  let w := colw wt idx j in map (fun v => xdiv v (xlsum w)) w.

(** Entry-wise product and its sum. *)
Definition xdotl (u v : list xd) : xd := xlsum (map (fun q => xmul (fst q) (snd q)) (combine u v)).

(** GWDA.cpp 399-412: row [j], column [a] of the local mean. *)
Definition wMean (x wt : nat -> nat -> R) (idx : list nat) (j a : nat) : xd :=
  xdotl (normw wt idx j) (map (fun k => XF (x k a)) idx).

(** GWDA.cpp 199-217: [xs] lists the rows of x; entry (a, b). *)
Definition covwtmat (xs : list (nat -> R)) (w : list xd) (a b : nat) : xd :=
  let s := xlsum w in
  let c := xdiv s (xsub (xmul s s) (xdotl w w)) in
  let col v := map (fun r : nat -> R => XF (r v)) xs in
  let average v := xdiv (xdotl (col v) w) s in
  let centred v := map (fun q => xsub q (average v)) (col v) in
  xmul c (xdotl w (map (fun q => xmul (fst q) (snd q)) (combine (centred a) (centred b)))).

(** GWDA.cpp 415-431: zero matrix for fewer than two variables. *)
Definition wVarCov (p : nat) (x wt : nat -> nat -> R) (idx : list nat) (j a b : nat) : xd :=
  if (2 <=? p)%nat then covwtmat (map x idx) (normw wt idx j) a b else XF 0.

(** GWDA.cpp 434-443. *)
Definition wPrior (wt : nat -> nat -> R) (idx : list nat) (sumW : xd) (j : nat) : xd :=
  xdiv (xlsum (colw wt idx j)) sumW.

(** [accu] of an [nr] x [nc] weight matrix. *)
Definition accu (nr nc : nat) (wt : nat -> nat -> R) : xd :=
  xlsum (flat_map (fun j => map (fun k => XF (wt k j)) (seq 0 nr)) (seq 0 nc)).

(** ** Discriminant scores *)

(** Options mIsWqda, mHascov, mHasmean, mHasprior (GWDA.h 387-390). *)
Record opts : Type := { isWqda : bool; hasCov : bool; hasMean : bool; hasPrior : bool }.

Section Scores.
(** [norm(M)] and [d' * solve(M, d)] (throws for a singular system). *)
Variable mnorm : (nat -> nat -> xd) -> xd.
Variable squad : (nat -> nat -> xd) -> (nat -> xd) -> outcome xd.
(** Rows of mCoords, mX, mY; columns of mX. *)
Variables n p : nat.
Variable x : nat -> nat -> R.
Variable y : list string.
Variable wt : nat -> nat -> R.
(** Prediction variables, with [npr] rows. *)
Variable npr : nat.
Variable xpr : nat -> nat -> R.
Variable o : opts.

(** GWDA.cpp 309-310: [wtOnes.ones(nDp, nPr)]. *)
Definition wtOnes : nat -> nat -> R := fun _ _ => 1.
(** Matrix used for one statistic, and its number of columns. *)
Definition pick (local : bool) : nat -> nat -> R := if local then wt else wtOnes.
Definition pick_cols (local : bool) : nat := if local then n else npr.

Definition members (i : nat) : list nat :=
  match nth_error (levels y) i with Some s => findSameString y s | None => [] end.
Definition m : nat := List.length (levels y).

(** GWDA.cpp 333, 378: [localMean[i].row(j)] throws beyond the matrix. *)
Definition mean_at (i j : nat) : outcome (nat -> xd) :=
  if (j <? pick_cols (hasMean o))%nat
  then Ok (fun a => wMean x (pick (hasMean o)) (members i) j a) else Throw.
Definition group_cov_at (i j : nat) : outcome (nat -> nat -> xd) :=
  if (j <? pick_cols (hasCov o))%nat
  then Ok (fun a b => wVarCov p x (pick (hasCov o)) (members i) j a b) else Throw.
(** GWDA.cpp 382: [prior[i].at(j)] is an unchecked access. *)
Definition prior_at (i j : nat) : outcome xd :=
  if (j <? pick_cols (hasPrior o))%nat
  then Ok (wPrior (pick (hasPrior o)) (members i)
                  (accu n (pick_cols (hasPrior o)) (pick (hasPrior o))) j) else UB.

(** GWDA.cpp 358-370: covariance pooled with the group sizes. *)
Definition pooled_cov_at (j : nat) : outcome (nat -> nat -> xd) :=
  let* covs := mapO (fun i => group_cov_at i j) (seq 0 m) in
  let sizes := map (fun s => XF (INR (count_of s (ytable y)))) (levels y) in
  Ok (fun a b => xdiv (xdotl sizes (map (fun c => c a b) covs)) (xlsum sizes)).

(** GWDA.cpp 285, 382: one entry of logPf; [m / 2] is an integer division.
    Simplification: 0.5 multiplies the finished quadratic form. *)
Definition score (cov : nat -> nat -> xd) (mean : nat -> xd) (prior : xd) (j : nat) : outcome xd :=
  let d := fun a => xsub (XF (xpr j a)) (mean a) in
  let* q := squad cov d in
  Ok (xsub (xadd (xmul (XF (INR (m / 2)%nat)) (xln (mnorm cov))) (xmul (XF (1 / 2)) q)) (xln prior)).

(** GWDA.cpp 303-385: columns of logPf. *)
Definition wlda : outcome (list (list xd)) :=
  let* covs := mapO pooled_cov_at (seq 0 npr) in
  mapO (fun i =>
    mapO (fun j => let* mean := mean_at i j in
                   match nth_error covs j with
                   | Some cov => let* pr := prior_at i j in score cov mean pr j
                   | None => Throw
                   end) (seq 0 npr)) (seq 0 m).

(** GWDA.cpp 220-288: [wtOnes] is declared but never sized (line 227 is
    commented out), so that [wtOnes.rows(idx)] throws for every non-empty
    group. *)
Definition wqda : outcome (list (list xd)) :=
  if (0 <? m)%nat && negb (hasMean o && hasCov o && hasPrior o) then Throw else
  mapO (fun i =>
    mapO (fun j => let* mean := mean_at i j in let* cov := group_cov_at i j in
                   let* pr := prior_at i j in score cov mean pr j) (seq 0 npr)) (seq 0 m).

Definition logPf : outcome (list (list xd)) := if isWqda o then wqda else wlda.

End Scores.

(** ** Classification and post-processing *)

(** Armadillo [index_min]: position of the first strict minimum, starting from
    +inf at position 0 (NaN and +inf entries never win). *)
Definition index_min (l : list xd) : nat :=
  snd (fold_left (fun (acc : xd * nat) (q : xd * nat) =>
                    if xltb (fst q) (fst acc) then q else acc)
                 (combine l (seq 0 (List.length l))) (XI false, 0%nat)).

(** Armadillo [max]: largest entry, starting from -inf. *)
Definition xlmax (l : list xd) : xd := fold_left (fun b v => if xltb b v then v else b) l (XI true).
Definition xlmin (l : list xd) : xd := fold_left (fun b v => if xltb v b then v else b) l (XI false).

(** Row [j] of a matrix stored by columns. *)
Definition row_of (cols : list (list xd)) (j : nat) : list xd := map (fun c => nth j c XN) cols.

(** GWDA.cpp 290-296, 387-393. *)
Definition groups_of (lev : list string) (npr : nat) (cols : list (list xd)) : outcome (list string) :=
  mapO (fun j => match nth_error lev (index_min (row_of cols j)) with
                 | Some s => Ok s | None => UB end) (seq 0 npr).

(** GWDA.cpp 58-63: [exp] is applied to all columns but the last. *)
Definition tmp_row (l : list xd) : list xd := map xexp (removelast l) ++ skipn (List.length l - 1) l.
(** GWDA.cpp 64. *)
Definition probs_row (l : list xd) : list xd :=
  let t := tmp_row l in map (fun v => xdiv v (xlsum t)) t.

(** std::log2. *)
Definition xlog2 (v : xd) : xd := xdiv (xln v) (XF (ln 2)).

(** GWDA.cpp 81-91. *)
Definition shannonEntropy (p : list xd) : xd :=
  if xltb (xlmin p) (XF 0) || xleb (xlsum p) (XF 0) then XF 0 else
  let pnorm := map (fun v => xdiv v (xlsum p)) (filter (fun v => xltb (XF 0) v) p) in
  xopp (xdotl (map xlog2 pnorm) pnorm).

(** GWDA.cpp 67-68. *)
Definition entMax (nv : nat) : xd :=
  shannonEntropy (map (fun v => xdiv v (XF (INR nv - 1))) (repeat (XF 1) (nv - 1))).
(** GWDA.cpp 70-74. *)
Definition entropy_row (l : list xd) : xd :=
  xdiv (shannonEntropy (probs_row l)) (entMax (List.length l)).

(** ** The algorithm object *)

(** mprX, mprY are private and have no setter: they are empty (None) in a fresh
    object and are filled by run. *)
Record state : Type := {
  st_prX : option (nat * (nat -> nat -> R));
  st_prY : option (list string) }.
Definition fresh : state := {| st_prX := None; st_prY := None |}.

Record result : Type := {
  r_group : list string;
  r_rate : xd;
  r_probs : list (list xd);
  r_pmax : list xd;
  r_entropy : list xd }.

(** GWDA.cpp 49-56: [mGroup[i] == mY[i]], unchecked on both vectors. *)
Definition matches (group y : list string) : outcome (list bool) :=
  mapO (fun i => match nth_error group i, nth_error y i with
                 | Some g, Some t => Ok (String.eqb g t)
                 | _, _ => UB end) (seq 0 (List.length group)).

(** GWDA.cpp 49-77: post-processing of mGroup and mRes.  With a single group
    [p] is empty and [min(p)] throws; with none [cols(0, NV - 1)] throws. *)
Definition summarise (n npr : nat) (y group : list string) (cols : list (list xd)) : outcome result :=
  let* ok := matches group y in
  if (List.length cols <=? 1)%nat then Throw else
  let count := List.length (filter (fun b => b) ok) in
  let* ent := mapO (fun i => if (i <? npr)%nat then Ok (entropy_row (row_of cols i)) else Throw) (seq 0 n) in
  Ok {| r_group := group;
        r_rate := xdiv (XF (INR count)) (XF (INR n));
        r_probs := map (fun j => probs_row (row_of cols j)) (seq 0 npr);
        r_pmax := map (fun j => xlmax (probs_row (row_of cols j))) (seq 0 npr);
        r_entropy := ent |}.

Inductive mode : Type := Serial | Omp.

(** GWDA.cpp 94-105 and 118-129: matrix of weights; [W k j] is entry k of
    weightVector(j).  Only the serial function clears the diagonal. *)
Definition weights (md : mode) (hasPredict : bool) (W : nat -> nat -> R) : nat -> nat -> R :=
  match md with
  | Serial => fun k j => if negb hasPredict && (k =? j)%nat then 0 else W k j
  | Omp => W
  end.

Section Run.
Variable mnorm : (nat -> nat -> xd) -> xd.
Variable squad : (nat -> nat -> xd) -> (nat -> xd) -> outcome xd.
Variables n p : nat.
Variable x : nat -> nat -> R.
Variable y : list string.
Variable W : nat -> nat -> R.
Variable o : opts.

(** GWDA.cpp 29-78: the object after the call, and its outcome. *)
Definition run (md : mode) (s : state) : state * outcome result :=
  if (p <? 2)%nat then (s, Throw) else
  let hasPredict := negb (match st_prX s with None => true | Some _ => false end
                          && match st_prY s with None => true | Some _ => false end) in
  let prX := match st_prX s with None => (n, x) | Some q => q end in
  let prY := match st_prY s with None => y | Some q => q end in
  ({| st_prX := Some prX; st_prY := Some prY |},
   let npr := fst prX in
   let* cols := logPf mnorm squad n p x y (weights md hasPredict W) npr (snd prX) o in
   let* group := groups_of (levels y) npr cols in
   summarise n npr y group cols).

End Run.
