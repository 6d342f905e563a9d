(** Model of the diagnostics of a local ridge regression.
    Source: src/gwmodelpp/GWRLocalCollinearity.cpp:75-86 (fit; CalcDiagnostic, 14-27, is the same as that of GWRBasic, DiagModel.v,
    and not called).  Conventions of DiagModel.v; [t0], [t1] are the members mTrS and mTrStS after the fit. *)
From Coq Require Import Reals.
From Verif Require Import XReal Sums DiagModel.
Local Open Scope R_scope.

Definition lc_diag_from (n rss yss t0 t1 : R) : diagnostic :=
  let enp := 2 * t0 - t1 in
  let edf := n - enp in
  let s2 := xdiv (XF rss) (XF (n - enp)) in
  let aic := xadd (xmul (XF n) (xadd (xln (xmul (XF (2 * PI)) s2)) (XF 1))) (XF (2 * (enp + 1))) in
  let aicc := xadd (xmul (XF n) (xln (xmul (XF (2 * PI)) s2)))
                   (xmul (XF n) (xdiv (xadd (XF 1) (xdiv (XF enp) (XF n))) (xsub (XF 1) (xdiv (XF (enp + 2)) (XF n))))) in
  let r2 := xsub (XF 1) (xdiv (XF rss) (XF yss)) in
  let r2_adj := xsub (XF 1) (xdiv (xmul (xsub (XF 1) r2) (XF (n - 1))) (XF edf)) in
  Diag rss aic aicc enp edf r2 r2_adj.

Definition lc_diagnostic (n p : nat) (x b : nat -> nat -> R) (y : nat -> R) (t0 t1 : R) : diagnostic :=
  lc_diag_from (INR n) (rss_of n p x b y) (yss_of n y) t0 t1.
