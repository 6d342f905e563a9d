(** Scalable GWR, local sums and coefficients: /repo/src/gwmodelpp/GWRScalable.cpp over exact scalars;
    conventions of GwrModel.v.  The neighbours of a location are given with their kernel values (a
    sequence of pairs, ScaNnModel.v); [gp p g] is pow(g, 2^(P/2) / 2^p) for p >= 1.  The stop telegram
    and the standard errors (mMxx0, Mx2, bse, trStS) are not modelled. *)
From mathcomp Require Import all_ssreflect all_algebra.
From Verif Require Import Outcome.
Set Implicit Arguments. Unset Strict Implicit. Unset Printing Implicit Defensive.
Import GRing.Theory Num.Theory.
Local Open Scope ring_scope.

Section Sca.
Variables (F : realFieldType) (n k P : nat).
Variable inv : 'M[F]_k -> option 'M[F]_k.
Variable gp : nat -> F -> F.
Notation poly1 := P.+1.

(** A vector of [size] elements; operator() checks the index. *)
Definition write (size idx : nat) (v : F) (m : nat -> F) : outcome (nat -> F) :=
  if (idx < size)%N then Ok (fun j => if j == idx then v else m j) else Throw.
Definition read (size idx : nat) (m : nat -> F) : outcome F :=
  if (idx < size)%N then Ok (m idx) else Throw.

Fixpoint for_ (I S : Type) (s : seq I) (f : I -> S -> outcome S) (st : S) : outcome S :=
  match s with
  | [::] => Ok st
  | i :: t => match f i st with Ok st' => for_ t f st' | Throw => Throw | UB => UB end
  end.

(** Packed indices: 287, 393, 574 (writing the moments) and 29, 45, 76, 96, 425, 449, 601, 625
    (reading them, and writing Rx). *)
Definition xindex_w (k1 p k2 : nat) : nat := ((k1 * poly1 + p) * k + k2)%N.
Definition xindex_r (k1 p k2 : nat) : nat := (k1 * poly1 * k + p * k + k2)%N.
(** 291, 397, 578; 32, 48, 80, 100, 428, 453, 605, 629 *)
Definition yindex (p k1 : nat) : nat := (p * k + k1)%N.
Definition xsize : nat := (poly1 * k * k)%N.
Definition ysize : nat := (poly1 * k)%N.

(** 268-271, 376-379, 557-560: row 0 of G is one. *)
Definition G (p : nat) (g : F) : F := if p is 0%N then 1 else gp p g.

(** prepare for one location (273-296, 381-400, 562-581). *)
Definition prepare (x : 'M[F]_(n, k)) (y : 'cV[F]_n) (nb : seq ('I_n * F)) : outcome ((nat -> F) * (nat -> F)) :=
  for_ (enum 'I_k) (fun k1 st =>
    for_ (enum 'I_poly1) (fun p st =>
      match for_ (enum 'I_k) (fun k2 mx =>
              write xsize (xindex_w k1 p k2) (\sum_(q <- nb) x q.1 k1 * G p q.2 * x q.1 k2) mx) st.1 with
      | Ok mx =>
          match write ysize (yindex p k1) (\sum_(q <- nb) x q.1 k1 * G p q.2 * y q.1 ord0) st.2 with
          | Ok my => Ok (mx, my)
          | Throw => Throw
          | UB => UB
          end
      | Throw => Throw
      | UB => UB
      end) st)
    ((fun _ => 0), (fun _ => 0)).

(** R0 (19-23, 67-71, 413-417, 584-589); None: a division of zero by zero. *)
Definition poly_weights (b : F) : option ('I_poly1 -> F) :=
  let r (p : 'I_poly1) := if nat_of_ord p == 0%N then b else b ^+ (p.+1) in
  let s := \sum_p r p in
  if s == 0 then None else Some (fun p => r p / s).

(** Rx, Ry (25-35, 73-83, 418-430, 590-607). *)
Definition spread (R0 : 'I_poly1 -> F) : outcome ((nat -> F) * (nat -> F)) :=
  for_ (enum 'I_poly1) (fun p st =>
    for_ (enum 'I_k) (fun k2 st =>
      match for_ (enum 'I_k) (fun k1 rx => write xsize (xindex_r k1 p k2) (R0 p) rx) st.1 with
      | Ok rx =>
          match write ysize (yindex p k2) (R0 p) st.2 with
          | Ok ry => Ok (rx, ry)
          | Throw => Throw
          | UB => UB
          end
      | Throw => Throw
      | UB => UB
      end) st)
    ((fun _ => 0), (fun _ => 0)).

(** sumMx, sumMy before the global part (38-50, 88-103, 440-456, 616-632); Mx = Rx % Mx0 etc. *)
Definition collect (mx my : nat -> F) : outcome (('I_k -> 'I_k -> F) * ('I_k -> F)) :=
  for_ (enum 'I_k) (fun k2 st =>
    for_ (enum 'I_poly1) (fun p st =>
      match for_ (enum 'I_k) (fun k1 sm =>
              match read xsize (xindex_r k1 p k2) mx with
              | Ok v => Ok (fun a c => if (a == k1) && (c == k2) then sm a c + v else sm a c)
              | Throw => Throw
              | UB => UB
              end) st.1 with
      | Ok sm =>
          match read ysize (yindex p k2) my with
          | Ok v => Ok (sm, (fun c => if c == k2 then st.2 c + v else st.2 c))
          | Throw => Throw
          | UB => UB
          end
      | Throw => Throw
      | UB => UB
      end) st)
    ((fun _ _ => 0), (fun _ => 0)).

(** sumMx and sumMy with the global part (51-52, 104-106, 457-459, 633-635). *)
Definition local_sums (x : 'M[F]_(n, k)) (y : 'cV[F]_n) (R0 : 'I_poly1 -> F) (a : F) (nb : seq ('I_n * F))
  : outcome ('M[F]_k * 'cV[F]_k) :=
  match prepare x y nb with
  | Ok (mx0, my0) =>
      match spread R0 with
      | Ok (rx, ry) =>
          match collect (fun j => rx j * mx0 j) (fun j => ry j * my0 j) with
          | Ok (sm, sy) =>
              Ok (\matrix_(c, d) sm c d + a *: (x^T *m x), \col_c sy c + a *: (x^T *m y))
          | Throw => Throw
          | UB => UB
          end
      | Throw => Throw
      | UB => UB
      end
  | Throw => Throw
  | UB => UB
  end.

(** Coefficients (460-461, 638, 647): None when inv throws. *)
Definition local_beta (m : 'M[F]_k) (my : 'cV[F]_k) : option 'cV[F]_k :=
  match inv (m^T *m m) with
  | None => None
  | Some B => Some (B *m (m^T *m my))
  end.

(** fitSerial (520-663): coefficients and trS.  An exception of inv is caught and logged (655-658); the
    coefficients of the observation stay zero.  [Ok None]: not numbers. *)
Definition sca_step (x : 'M[F]_(n, k)) y R0 a (NB : 'I_n -> seq ('I_n * F)) (i : 'I_n)
    (st : ('I_n -> 'cV[F]_k) * F) : outcome (('I_n -> 'cV[F]_k) * F) :=
  match local_sums x y R0 a (NB i) with
  | Ok (m, my) =>
      match inv (m^T *m m) with
      | None => Ok st
      | Some B =>
          Ok ((fun j => if j == i then B *m (m^T *m my) else st.1 j),
              st.2 + (row i x *m (B *m (row i x)^T)) ord0 ord0)
      end
  | Throw => Throw
  | UB => UB
  end.
Definition sca_fit (x : 'M[F]_(n, k)) y (b a : F) NB : outcome (option (('I_n -> 'cV[F]_k) * F)) :=
  match poly_weights b with
  | None => Ok None
  | Some R0 =>
      match for_ (enum 'I_n) (sca_step x y R0 a NB) ((fun _ => 0), 0) with
      | Ok r => Ok (Some r)
      | Throw => Throw
      | UB => UB
      end
  end.

(** predictSerial (343-461), one location. *)
Definition sca_predict (x : 'M[F]_(n, k)) y (b a : F) (nb : seq ('I_n * F)) : outcome (option 'cV[F]_k) :=
  match poly_weights b with
  | None => Ok None
  | Some R0 =>
      match local_sums x y R0 a nb with
      | Ok (m, my) => match local_beta m my with Some beta => Ok (Some beta) | None => Throw end
      | Throw => Throw
      | UB => UB
      end
  end.

(** Loocv (15-61): [solve] is arma::solve (None: it throws).  None: DBL_MAX. *)
Definition loocv (solve : 'M[F]_k -> 'cV[F]_k -> option 'cV[F]_k) (x : 'M[F]_(n, k)) (y : 'cV[F]_n) (b a : F)
    (NB : 'I_n -> seq ('I_n * F)) : outcome (option F) :=
  match poly_weights b with
  | None => Ok None
  | Some R0 =>
      for_ (enum 'I_n) (fun i acc =>
        match local_sums x y R0 a (NB i) with
        | Ok (m, my) =>
            Ok (match acc, solve m my with
                | Some s, Some beta => Some (s + (y i ord0 - (x *m beta) i ord0) ^+ 2)
                | _, _ => None
                end)
        | Throw => Throw
        | UB => UB
        end) (Some 0)
  end.
End Sca.
