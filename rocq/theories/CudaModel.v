(** Model of the batched CUDA loops of GWRBasic.
    Source: GWRBasic.cpp:589-672 (fitCoreCuda), 674-720 (predictCuda), 722-770
    (fitCoreCVCuda), 772-826 (fitCoreSHatCuda); include/gwmodelpp/utils/cumat.hpp:
    custride (zero initialised, get() copies nstrides() matrices), cuview, cuop_matmul
    (number of strides of a product: those of the left operand when constructed, those
    of the destination when assigned), cuop_inv (inverts every stride).
    The numerical content of a location e is reduced to: whether its cross product is
    invertible ([ok e]) and the two statistics it contributes ([tr e] = s_ee,
    [ss e] = s_e s_e').  Device memory errors other than those stated are not modelled;
    index computations are on naturals (no wrap-around). *)
From Coq Require Import Reals Bool List Arith.
From Verif Require Import Outcome Sums.
Import ListNotations.
Local Open Scope R_scope.

(** GWRBasic.cpp:602 : number of groups; mGroupLength = 0 divides by zero. *)
Definition groups (size G : nat) : outcome nat :=
  if Nat.eqb G 0 then UB
  else Ok (size / G + (if Nat.eqb (size mod G) 0 then 0 else 1))%nat.

(** GWRBasic.cpp:619 : begin and length of group i of the range [lo, hi). *)
Definition gbegin (lo G i : nat) : nat := (lo + i * G)%nat.
Definition glength (lo hi G i : nat) : nat :=
  let b := gbegin lo G i in if Nat.ltb hi (b + G) then (hi - b)%nat else G.
Definition group (lo hi G i : nat) : list nat := seq (gbegin lo G i) (glength lo hi G i).

(** Writing the first entries of a buffer. *)
Definition overwrite {A : Type} (new buf : list A) : list A := new ++ skipn (length new) buf.

Section Cuda.
Variable ok : nat -> bool.
Variables tr ss : nat -> R.

Record cstate := mkC {
  xtw : list (option nat);   (* u_xtw: which location each stride holds; None = zeros *)
  sst : list R;              (* host buffer sst *)
  seen : list nat;           (* locations whose betas column has been written *)
  shat0 : R;
  shat1 : R
}.
(** Buffers of length G, zero initialised (GWRBasic.cpp:606-612, 778-780). *)
Definition c0 (G : nat) : cstate := mkC (repeat None G) (repeat 0 G) [] 0 0.

(** GWRBasic.cpp:631-641 : every one of the G strides must have been inverted; a zero
    matrix is singular. *)
Definition invertible (o : option nat) : bool :=
  match o with Some e => ok e | None => false end.

(** One group of fitCoreCuda.  u_s and u_sst have G strides, those beyond [length] are
    computed from memory behind u_xt ([junk]). *)
Definition fit_group (junk : nat -> nat -> R) (lo hi G i : nat) (st : cstate) : outcome cstate :=
  let idx := group lo hi G i in
  let x := overwrite (map Some idx) (xtw st) in
  if forallb invertible x then
    let b := map ss idx ++ map (junk i) (seq (length idx) (G - length idx)) in
    Ok (mkC x b (seen st ++ idx)
         (shat0 st + lsum (map tr idx)) (shat1 st + lsum (firstn (length idx) b)))
  else Throw.

(** One group of fitCoreSHatCuda: u_sst has [length] strides, the rest of sst keeps its
    old contents, and all of sst is summed.  On failure the loop stops without an error
    (success = false). *)
Definition shat_group (lo hi G i : nat) (st : cstate) : outcome cstate :=
  let idx := group lo hi G i in
  let x := overwrite (map Some idx) (xtw st) in
  if forallb invertible x then
    let b := overwrite (map ss idx) (sst st) in
    Ok (mkC x b (seen st ++ idx) (shat0 st + lsum (map tr idx)) (shat1 st + lsum b))
  else Throw.

Fixpoint gloop (body : nat -> cstate -> outcome cstate) (is : list nat) (st : cstate)
  : outcome cstate :=
  match is with
  | [] => Ok st
  | i :: t => match body i st with
              | Ok st' => gloop body t st'
              | Throw => Throw
              | UB => UB
              end
  end.
(** The same loop, keeping the last state when a group fails. *)
Fixpoint gloop_quiet (body : nat -> cstate -> outcome cstate) (is : list nat) (st : cstate)
  : outcome cstate :=
  match is with
  | [] => Ok st
  | i :: t => match body i st with
              | Ok st' => gloop_quiet body t st'
              | Throw => Ok st
              | UB => UB
              end
  end.

Definition fit_cuda (junk : nat -> nat -> R) (lo hi G : nat) : outcome cstate :=
  match groups (hi - lo) G with
  | Ok g => gloop (fit_group junk lo hi G) (seq 0 g) (c0 G)
  | Throw => Throw
  | UB => UB
  end.
Definition shat_cuda (lo hi G : nat) : outcome cstate :=
  match groups (hi - lo) G with
  | Ok g => gloop_quiet (shat_group lo hi G) (seq 0 g) (c0 G)
  | Throw => Throw
  | UB => UB
  end.

(** predictCuda (674-720): the range is that of the nDp data points although betas has
    nRp columns; a group reaching beyond nRp writes outside u_betas. *)
Definition predict_group (nDp nRp G i : nat) (st : cstate) : outcome cstate :=
  let idx := group 0 nDp G i in
  let x := overwrite (map Some idx) (xtw st) in
  if forallb invertible x then
    if forallb (fun e => Nat.ltb e nRp) idx
    then Ok (mkC x (sst st) (seen st ++ idx) (shat0 st) (shat1 st))
    else UB
  else Throw.
Definition predict_cuda (nDp nRp G : nat) : outcome cstate :=
  match groups nDp G with
  | Ok g => gloop (predict_group nDp nRp G) (seq 0 g) (c0 G)
  | Throw => Throw
  | UB => UB
  end.
End Cuda.
