(** GWPCA: /repo/src/gwmodelpp/GWPCA.cpp over exact scalars.  [sq] is the square root, [svd] is arma::svd
    (singular values and V; None: it fails and returns empty results).  X has as many rows as there are
    coordinates (otherwise the product in wpca throws).  The stop telegram is not modelled. *)
From mathcomp Require Import all_ssreflect all_algebra.
From Verif Require Import Outcome.
Set Implicit Arguments. Unset Strict Implicit. Unset Printing Implicit Defensive.
Import GRing.Theory Num.Theory.
Local Open Scope ring_scope.

Section Pca.
Variables (F : realFieldType) (n p : nat).
Variable sq : F -> F.
Variable svd : 'M[F]_(n, p) -> option (seq F * 'M[F]_p).

Definition total (w : 'cV[F]_n) : F := \sum_l w l ord0.

(** 49-50: the weighted mean is subtracted, rows are multiplied by the roots of the weights. *)
Definition centred (x : 'M[F]_(n, p)) (w : 'cV[F]_n) : 'M[F]_(n, p) :=
  \matrix_(l, c) ((x l c - (\sum_h x h c * w h ord0) / total w) * sq (w l ord0)).

(** wpca (47-52).  Total weight zero: the matrix has no numbers and svd fails. *)
Definition wpca (x : 'M[F]_(n, p)) (w : 'cV[F]_n) : option (seq F * 'M[F]_p) :=
  if total w == 0 then None else svd (centred x w).

(** One location of solveSerial (26-38): the row of singular values and the loadings of the first K
    components.  A failure of svd leaves d empty; the assignment of a vector of another size throws,
    V.col(j) throws for j >= p. *)
Definition pca_at (K : nat) (x : 'M[F]_(n, p)) (w : 'cV[F]_n) : outcome (seq F * seq 'cV[F]_p) :=
  match wpca x w with
  | None => if p == 0%N then (if K == 0%N then Ok ([::], [::]) else Throw) else Throw
  | Some (d, V) =>
      if size d == p
      then if (K <= p)%N then Ok (d, [seq col j V | j <- take K (enum 'I_p)]) else Throw
      else Throw
  end.

Fixpoint pca_all (K : nat) (x : 'M[F]_(n, p)) (W : 'I_n -> 'cV[F]_n) (s : seq 'I_n)
  : outcome (seq (seq F * seq 'cV[F]_p)) :=
  match s with
  | [::] => Ok [::]
  | i :: t => match pca_at K x (W i) with
              | Ok a => match pca_all K x W t with Ok r => Ok (a :: r) | Throw => Throw | UB => UB end
              | Throw => Throw
              | UB => UB
              end
  end.

(** 40-44, one row: [s0] is the sum of w0.  sdev and PV; None: not a number. *)
Definition variance (s0 v : F) : F := (v / sq s0) * (v / sq s0).
Definition sdev_row (s0 : F) (d : seq F) : seq F := [seq sq (variance s0 v) | v <- d].
Definition pv_row (K : nat) (s0 : F) (d : seq F) : seq (option F) :=
  let s := \sum_(v <- d) variance s0 v in
  [seq if s == 0 then None else Some (variance s0 v * (1 / s) * 100%:R) | v <- take K d].

(** solveSerial (19-45): per location PV, standard deviations, loadings.  w0 holds the weights of the last
    location.  For K = 0 the bounds of variance.cols(0, mK - 1) throw. *)
Definition pca (K : nat) (x : 'M[F]_(n, p)) (W : 'I_n -> 'cV[F]_n)
  : outcome (seq (seq (option F) * seq F * seq 'cV[F]_p)) :=
  match pca_all K x W (enum 'I_n) with
  | Ok rows =>
      if K == 0%N then Throw else
      let s0 := last 0 [seq total (W i) | i <- enum 'I_n] in
      Ok [seq (pv_row K s0 a.1, sdev_row s0 a.1, a.2) | a <- rows]
  | Throw => Throw
  | UB => UB
  end.

(** run, 16: index_max over the loadings of the first component: the first largest entry. *)
Definition index_max (v : 'cV[F]_p) : option 'I_p :=
  foldl (fun best j => match best with Some b => if v b ord0 < v j ord0 then Some j else best | None => Some j end)
    None (enum 'I_p).
End Pca.
