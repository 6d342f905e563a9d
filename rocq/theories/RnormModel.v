(** Local normal equations and residual sums of squares with rounding.
    Source: GWRBasic.cpp:301-303 (fitCoreCVSerial; the same three statements are at 217-219, 262-264, 328-330, 434-436, 479-481, in GTWR.cpp:124-126
    and elsewhere), GWDR.cpp:226-228 (fitSerial), GWRBasic.cpp:47-50 (CalcDiagnostic).
    GwrModel.v, GwdrFitModel.v and DiagModel.v have the same functions over exact numbers.  Every operation is rounded
    (RoundModel.v); sums are added in any order (RgwssModel.v).
    Simplified: no fused multiply-add. *)
From Coq Require Import Reals List ZArith.
From Verif Require Import XReal RoundModel RgwssModel.
Local Open Scope R_scope.

Section Rounded.
Variables (rn : R -> R) (big : R).
(** 301-303: "xtw = trans(x.each_col() % w); xtwx = xtw * x; xtwy = xtw * y": the entry for a column [a] of x and a column [b] of x,
    or the dependent variable [b]. *)
Definition r_cross (t : order) (w a b : nat -> xd) : xd :=
  osum rn big (fun j => rmul rn big (rmul rn big (a j) (w j)) (b j)) t.
(** GWDR.cpp:228: "trans(x) * (w % y)" *)
Definition r_cross_dr (t : order) (w a y : nat -> xd) : xd :=
  osum rn big (fun j => rmul rn big (a j) (rmul rn big (w j) (y j))) t.
(** 49: "y - sum(betas % x, 1)", row [j], the columns added in the order [tc]. *)
Definition r_residual (tc : order) (beta x : nat -> nat -> xd) (y : nat -> xd) (j : nat) : xd :=
  rsub rn big (y j) (osum rn big (fun c => rmul rn big (beta j c) (x j c)) tc).
(** 50: "sum(r % r)" *)
Definition r_rss (tc tr : order) (beta x : nat -> nat -> xd) (y : nat -> xd) : xd :=
  let r := r_residual tc beta x y in osum rn big (fun j => rmul rn big (r j) (r j)) tr.
End Rounded.
