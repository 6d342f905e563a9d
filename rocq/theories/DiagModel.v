(** Model of the regression diagnostics.
    Source: GWRBasic.cpp:47-60 (CalcDiagnostic; the same text in GTWR.cpp:14-27 and
    GWRRobust.cpp:15-28 and GWRScalable.cpp:129-142), GWRMultiscale.cpp:53-76 (the same numbers from a given RSS; its AIC
    field is left uninitialised and not modelled), GWRBase.h:64-95 (RSS, AICc), GWRBasic.cpp:235-244 (fitBase: standard errors).
    The data are finite; sums are exact.  Divisions and logarithms are those of IEEE doubles
    ([xdiv], [xln]), so that a zero residual sum of squares, a constant response and a zero
    denominator give infinities or NaN as in C++. *)
From Coq Require Import Reals Bool List.
From Verif Require Import XReal Sums.
Local Open Scope R_scope.

(** std::log *)
Definition xln (x : xd) : xd :=
  match x with
  | XF r => if Reqb r 0 then XI true else if Rltb r 0 then XN else XF (ln r)
  | XNZ => XI true
  | XI false => XI false
  | _ => XN
  end.

(** "sum(betas % x, 1)": row i of n; p columns *)
Definition fitted (p : nat) (x b : nat -> nat -> R) (i : nat) : R := bigsum p (fun k => b i k * x i k).
Definition rss_of (n p : nat) (x b : nat -> nat -> R) (y : nat -> R) : R :=
  bigsum n (fun i => (y i - fitted p x b i) * (y i - fitted p x b i)).
(** arma::mean of a non-empty vector *)
Definition mean (n : nat) (y : nat -> R) : R := bigsum n y / INR n.
Definition yss_of (n : nat) (y : nat -> R) : R :=
  bigsum n (fun i => (y i - mean n y) * (y i - mean n y)).

(** RegressionDiagnostic.h:11-32 *)
Record diagnostic := Diag { RSSv : R; AIC : xd; AICc : xd; ENP : R; EDF : R; R2 : xd; R2adj : xd }.

(** "n*log(rss/n) + n*log(2*pi)" *)
Definition loglik (n rss : R) : xd :=
  xadd (xmul (XF n) (xln (xdiv (XF rss) (XF n)))) (xmul (XF n) (xln (XF (2 * PI)))).

(** The common part: from n, rss, yss, shat(0), shat(1). *)
Definition diag_from (n rss yss s0 s1 : R) : diagnostic :=
  let aic := xadd (xadd (loglik n rss) (XF n)) (XF s0) in
  let aicc := xadd (loglik n rss) (xmul (XF n) (xdiv (XF (n + s0)) (XF (n - 2 - s0)))) in
  let edf := n - 2 * s0 + s1 in
  let enp := 2 * s0 - s1 in
  let r2 := xsub (XF 1) (xdiv (XF rss) (XF yss)) in
  let r2_adj := xsub (XF 1) (xdiv (xmul (xsub (XF 1) r2) (XF (n - 1))) (XF (edf - 1))) in
  Diag rss aic aicc enp edf r2 r2_adj.

Definition calc_diagnostic (n p : nat) (x b : nat -> nat -> R) (y : nat -> R) (s0 s1 : R) : diagnostic :=
  diag_from (INR n) (rss_of n p x b y) (yss_of n y) s0 s1.

(** GWRBase.h:90-94, AICc: the value used while searching. *)
Definition base_aicc (n p : nat) (x b : nat -> nat -> R) (y : nat -> R) (s0 : R) : xd :=
  xadd (loglik (INR n) (rss_of n p x b y)) (xmul (XF (INR n)) (xdiv (XF (INR n + s0)) (XF (INR n - 2 - s0)))).

(** fitBase: mBetasSE entry from the accumulated sum of squares. *)
Definition beta_se (n p : nat) (x b : nat -> nat -> R) (y : nat -> R) (s0 s1 : R) (se2 : R) : xd :=
  let d := calc_diagnostic n p x b y s0 s1 in
  let sigma := xdiv (XF (RSSv d)) (XF (INR n - 2 * s0 + s1)) in
  xsqrt (xmul sigma (XF se2)).
