(** Scalable GWR, neighbour search and kernel values: /repo/src/gwmodelpp/GWRScalable.cpp.
    Conventions: uword arithmetic is modulo 2^64; [dist i] is the vector of distances of observation
    (location) i to all observations; arma::sort_index is a parameter, arma::sort returns the values
    in the order of sort_index. *)
From Coq Require Import Reals Bool List ZArith.
From Verif Require Import Outcome XReal KernelModel.
Import ListNotations.
Local Open Scope R_scope.

(** Scalar conversion double -> uword: undefined outside the range. *)
Definition to_uword (b : R) : outcome Z :=
  if Rltb (-1) b && Rltb b (IZR (2 ^ 64)) then Ok (if Rltb b 0 then 0%Z else Int_part b) else UB.
Definition w64 (z : Z) : Z := (z mod 2 ^ 64)%Z.

Section Nn.
Variable sort_index : list R -> list nat.

(** v(span(0, last)) of a vector of [length l] elements: throws when out of bounds. *)
Definition span0 {A} (l : list A) (last : Z) : outcome (list A) :=
  if Z.ltb last (Z.of_nat (length l)) then Ok (firstn (Z.to_nat (last + 1)) l) else Throw.

Fixpoint for_rows {A} (f : nat -> outcome A) (is : list nat) : outcome (list A) :=
  match is with
  | [] => Ok []
  | i :: t => let* a := f i in let* r := for_rows f t in Ok (a :: r)
  end.

(** 149-158, 181-188: index and distance rows of [nBw] neighbours.  Matrices of 2^61 and more rows
    cannot be allocated (Armadillo throws). *)
Definition nearest (nBw : Z) (dist : nat -> list R) (rows : nat) : outcome (list (list nat * list R)) :=
  if (0 <? Z.of_nat rows)%Z && (2 ^ 61 <=? nBw)%Z then Throw else
  for_rows (fun i =>
    let is := sort_index (dist i) in
    let* idx := span0 is (w64 (nBw - 1)) in
    let* ds := span0 (map (fun j => nth j (dist i) 0) is) (w64 (nBw - 1)) in
    Ok (idx, ds)) (seq 0 rows).

Definition min_bw (t n : Z) : Z := if Z.ltb t n then t else n.

(** findDataPointNeighbours (143-171): one row per observation; mDpNNIndex, mDpNNDists. *)
Definition find_dp (cv : bool) (bw : R) (dist : nat -> list R) (n : nat) : outcome (list (list nat * list R)) :=
  let* t := to_uword bw in
  let nBw := min_bw t (Z.of_nat n) in
  if cv then nearest (w64 (nBw - 1)) dist n
  else let* rows := nearest nBw dist n in
       Ok (map (fun ir => (fst ir :: fst (snd ir), 0 :: snd (snd ir))) (combine (seq 0 n) rows)).

(** findNeighbours (173-191) *)
Definition find_nb (bw : R) (dist : nat -> list R) (n rows : nat) : outcome (list (list nat * list R)) :=
  let* t := to_uword bw in nearest (min_bw t (Z.of_nat n)) dist rows.

(** fit 466-486 (= predict 302-323) up to the choice of band0: neighbours, the clipped bandwidth and
    the column "min(50, nBw) - 1" of the distances, one value per observation.  .col() throws when
    out of bounds. *)
Definition first_stage (cv : bool) (bw : R) (dist : nat -> list R) (n : nat)
  : outcome (list (list nat * list R) * Z * list R) :=
  let* rows := find_dp cv bw dist n in
  let* t := to_uword bw in
  let nBw := if Z.leb (Z.of_nat n) t then w64 (Z.of_nat n - 1) else t in
  let c := w64 (Z.min 50 nBw - 1) in
  let* col := for_rows (fun i =>
      match nth_error rows i with
      | Some r => match span0 (snd r) c with Ok ds => Ok (last ds 0) | Throw => Throw | UB => UB end
      | None => Throw
      end) (seq 0 n) in
  Ok (rows, nBw, col).
End Nn.

(** isValid (665-681) beyond GWRBase::isValid. *)
Definition sca_valid (kernel : KernelModel.kernel) (bw : R) : bool :=
  match kernel with Gaussian | Exponential => Rltb 0 bw | _ => false end.

(** 315, 319, 366, 370, 482, 486: band0 from the median, and mG0 from a distance. *)
Definition band0 (kernel : KernelModel.kernel) (med : xd) : option xd :=
  match kernel with
  | Gaussian => Some (xdiv med (xsqrt (XF 3)))
  | Exponential => Some (xdiv med (XF 3))
  | _ => None
  end.
Definition g0 (kernel : KernelModel.kernel) (med d : xd) : option xd :=
  match band0 kernel med with
  | Some b => let r := xdiv d b in Some (xexp (xopp (xmul r r)))
  | None => None
  end.
