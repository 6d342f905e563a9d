(** Extended doubles: exact finite arithmetic plus the IEEE-754 special values.

    Stands for the C++ type [double] wherever NaN, infinities or the sign of
    zero decide the result.  Simplification: finite results are exact (no
    rounding, no overflow to infinity, no underflow to zero). *)
From Coq Require Import Reals Bool List ZArith Lra.
Import ListNotations.
Local Open Scope R_scope.

Inductive xd : Type :=
| XF (r : R)      (* finite value; [XF 0] is +0 *)
| XNZ             (* -0 *)
| XI (neg : bool) (* infinity; [XI true] is -inf *)
| XN.             (* NaN *)

Definition Rltb (x y : R) : bool := if Rlt_dec x y then true else false.
Definition Rleb (x y : R) : bool := if Rle_dec x y then true else false.
Definition Reqb (x y : R) : bool := if Req_EM_T x y then true else false.

(** Numerical value of a finite extended double. *)
Definition xval (x : xd) : option R :=
  match x with XF r => Some r | XNZ => Some 0 | _ => None end.

(** Sign bit. *)
Definition xsign (x : xd) : bool :=
  match x with XF r => Rltb r 0 | XNZ => true | XI s => s | XN => false end.

(** Finite result with value [r], carrying sign [neg] when it is zero. *)
Definition xfin (neg : bool) (r : R) : xd :=
  if Reqb r 0 then (if neg then XNZ else XF 0) else XF r.

Definition xopp (x : xd) : xd :=
  match x with
  | XF r => if Reqb r 0 then XNZ else XF (- r)
  | XNZ => XF 0
  | XI s => XI (negb s)
  | XN => XN
  end.

Definition xadd (x y : xd) : xd :=
  match x, y with
  | XN, _ | _, XN => XN
  | XI s, XI t => if Bool.eqb s t then XI s else XN
  | XI s, _ => XI s
  | _, XI t => XI t
  | XNZ, XNZ => XNZ
  | XF a, XF b => XF (a + b)
  | XF a, XNZ => XF a
  | XNZ, XF b => XF b
  end.

Definition xsub (x y : xd) : xd := xadd x (xopp y).

Definition xmul (x y : xd) : xd :=
  match x, y with
  | XN, _ | _, XN => XN
  | XI s, XI t => XI (xorb s t)
  | XI s, _ =>
      match xval y with
      | Some b => if Reqb b 0 then XN else XI (xorb s (xsign y))
      | None => XN
      end
  | _, XI t =>
      match xval x with
      | Some a => if Reqb a 0 then XN else XI (xorb (xsign x) t)
      | None => XN
      end
  | _, _ =>
      match xval x, xval y with
      | Some a, Some b => xfin (xorb (xsign x) (xsign y)) (a * b)
      | _, _ => XN
      end
  end.

Definition xdiv (x y : xd) : xd :=
  match x, y with
  | XN, _ | _, XN => XN
  | XI s, XI t => XN
  | XI s, _ => XI (xorb s (xsign y))
  | _, XI t => xfin (xorb (xsign x) t) 0
  | _, _ =>
      match xval x, xval y with
      | Some a, Some b =>
          if Reqb b 0
          then (if Reqb a 0 then XN else XI (xorb (xsign x) (xsign y)))
          else xfin (xorb (xsign x) (xsign y)) (a / b)
      | _, _ => XN
      end
  end.

(** C++ [<]: false as soon as one operand is NaN. *)
Definition xltb (x y : xd) : bool :=
  match x, y with
  | XN, _ | _, XN => false
  | XI true, XI true => false
  | XI true, _ => true
  | XI false, _ => false
  | _, XI t => negb t
  | _, _ =>
      match xval x, xval y with
      | Some a, Some b => Rltb a b
      | _, _ => false
      end
  end.

(** C++ [<=] on non-NaN operands. *)
Definition xleb (x y : xd) : bool :=
  match x, y with
  | XN, _ | _, XN => false
  | _, _ => negb (xltb y x)
  end.

Definition xexp (x : xd) : xd :=
  match x with
  | XF r => XF (exp r)
  | XNZ => XF 1
  | XI true => XF 0
  | XI false => XI false
  | XN => XN
  end.

(** Conversion of a C++ bool / uword 0-1 result to double. *)
Definition xofbool (b : bool) : xd := if b then XF 1 else XF 0.

Definition xisnan (x : xd) : bool := match x with XN => true | _ => false end.
Definition xisfinite (x : xd) : bool :=
  match x with XF _ | XNZ => true | _ => false end.

(** DBL_MAX of IEEE binary64. *)
Definition DBL_MAX : R := IZR ((2 ^ 53 - 1) * 2 ^ 971).

(** [xvals xs rs]: the entries of [xs] are finite doubles with real values [rs]. *)
Definition xvals (xs : list xd) (rs : list R) : Prop := map xval xs = map Some rs.

(** sqrt, fabs, atan on extended doubles. *)
Definition xsqrt (x : xd) : xd :=
  match x with
  | XF r => if Rltb r 0 then XN else XF (sqrt r)
  | XNZ => XNZ
  | XI false => XI false
  | _ => XN
  end.
Definition xabs (x : xd) : xd :=
  match x with
  | XF r => XF (Rabs r)
  | XNZ => XF 0
  | XI _ => XI false
  | XN => XN
  end.
Definition xatan (x : xd) : xd :=
  match x with
  | XF r => XF (atan r)
  | XNZ => XNZ
  | XI s => XF (if s then - (PI / 2) else PI / 2)
  | XN => XN
  end.
